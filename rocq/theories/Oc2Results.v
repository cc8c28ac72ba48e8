(* What calls of the OpenCV-style extraction return. *)
From stdpp Require Import sorting relations functions list_numbers list.
From Coq Require Import NArith ZArith SpecFloat.
From Verif Require Import Spec FloodAbs FloodAbsProof Grid FloodModel FloatModel RectModel RecogModel UtilFacts
  LinkedCorrect OcvModel OcvRefine Oc2Model Oc2Spec Oc2Join Oc2Seg Oc2Share Oc2Refine Oc2Correct.
Local Open Scope nat_scope.

(* ---------- the rectangle ---------- *)
Definition wfold (s : Z * Z * Z * Z) (l : list (Z * Z)) : Z * Z * Z * Z :=
  foldl (fun '(x0, y0, x1, y1) '(x, y) => (Z.min x0 x, Z.min y0 y, Z.max x1 x, Z.max y1 y)) s l.
Lemma wfold_ok l x0 y0 x1 y1 : exists a b c d, wfold (x0, y0, x1, y1) l = (a, b, c, d) /\
  ((a <= x0 /\ b <= y0 /\ x1 <= c /\ y1 <= d) /\ (forall x y, (x, y) ∈ l -> a <= x <= c /\ b <= y <= d) /\
  (a = x0 \/ exists y, (a, y) ∈ l) /\ (b = y0 \/ exists x, (x, b) ∈ l) /\ (c = x1 \/ exists y, (c, y) ∈ l) /\ (d = y1 \/ exists x, (x, d) ∈ l))%Z.
Proof.
  revert x0 y0 x1 y1. induction l as [|[u v] l IH]; intros x0 y0 x1 y1.
  - exists x0, y0, x1, y1. split; [done|]. split; [lia|]. split; [intros x y H; by apply elem_of_nil in H|]. auto.
  - destruct (IH (Z.min x0 u) (Z.min y0 v) (Z.max x1 u) (Z.max y1 v)) as (a & b & c & d & E & H1 & H2 & H3 & H4 & H5 & H6). exists a, b, c, d. split; [exact E|].
    split; [lia|]. split. { intros x y H. apply elem_of_cons in H as [H|H]; [injection H as -> ->; lia|auto]. }
    split; [|split; [|split]].
    + destruct H3 as [->|(y & Hy)]; [|right; exists y; by right]. destruct (Z.min_spec x0 u) as [[_ ->]|[_ ->]]; [by left|right; exists v; left].
    + destruct H4 as [->|(y & Hy)]; [|right; exists y; by right]. destruct (Z.min_spec y0 v) as [[_ ->]|[_ ->]]; [by left|right; exists u; left].
    + destruct H5 as [->|(y & Hy)]; [|right; exists y; by right]. destruct (Z.max_spec x1 u) as [[_ ->]|[_ ->]]; [right; exists v; left|by left].
    + destruct H6 as [->|(y & Hy)]; [|right; exists y; by right]. destruct (Z.max_spec y1 v) as [[_ ->]|[_ ->]]; [right; exists u; left|by left].
Qed.
Lemma wbound_hull l : l <> [] -> (forall x y, (x, y) ∈ l -> 0 <= x <= int_max /\ 0 <= y <= int_max)%Z -> hull (fun x y => (x, y) ∈ l) (wbound l).
Proof.
  intros Hne Hr. unfold wbound, wbox. destruct (wfold_ok l int_max int_max 0 0) as (a & b & c & d & E & _ & H2 & H3 & H4 & H5 & H6). unfold wfold in E. rewrite E. clear E.
  destruct l as [|[u v] l']; [done|]. set (l := (u, v) :: l') in *. assert ((u, v) ∈ l) as Huv by left. pose proof (H2 _ _ Huv). pose proof (Hr _ _ Huv).
  assert (exists y, (a, y) ∈ l) as (ya & Ha). { destruct H3 as [E|]; [|done]. exists v. assert (a = u) as -> by lia. done. }
  assert (exists x, (x, b) ∈ l) as (xb & Hb). { destruct H4 as [E|]; [|done]. exists u. assert (b = v) as -> by lia. done. }
  assert (exists y, (c, y) ∈ l) as (yc & Hc). { destruct H5 as [E|]; [|done]. exists v. assert (c = u) as -> by lia. done. }
  assert (exists x, (x, d) ∈ l) as (xd & Hd). { destruct H6 as [E|]; [|done]. exists u. assert (d = v) as -> by lia. done. }
  unfold hull, covers. cbn [x_left x_top x_w x_h]. split.
  - intros x y Hxy. specialize (H2 x y Hxy). lia.
  - intros q Hq x y Hxy. pose proof (Hq _ _ Ha). pose proof (Hq _ _ Hb). pose proof (Hq _ _ Hc). pose proof (Hq _ _ Hd). lia.
Qed.

Section res.
Context (src : list N) (step w h : nat) (P : rparam) (HF : limg_fits src step w h).
Notation W := (wide w).
Notation nodes := (rect_nodes W 1 1 w h).

(* C98 *)
Theorem w_call_returns n gap dark bright b : wbuf_ok w h b -> (0 <= gap < 32)%Z -> 6 * (w * h) < n ->
  exists r, w_call n src step w h P gap dark bright b = Some r.
Proof using HF.
  intros Hb Hgap Hn. destruct (wide_ok w) as [_ Hwide].
  assert (forall p, p ∈ nodes -> wpoint W gap p = Some (default (0, 0)%Z (wpoint W gap p))) as Hpt.
  { intros p Hp. apply wpoint_some; [done|]. by apply (wnode_range W w h Hwide). }
  assert (forall gm b, wbuf_ok w h b -> exists out s' b', w_pass n src step w h P gap gm b = Some (out, s', b') /\ wbuf_ok w h b') as Hp.
  { intros gm b0 Hb0. destruct (wpass_ok src step w h gm HF n P gap (fun p => default (0, 0)%Z (wpoint W gap p)) b0 Hb0 Hn Hpt) as (out & s' & b' & H1 & H2 & _). eauto. }
  unfold w_call. assert (exists r0 b1, (if dark then match w_pass n src step w h P gap 0 b with Some (r, _, b') => Some (r, b') | None => None end else Some ([], b)) = Some (r0, b1) /\ wbuf_ok w h b1) as (r0 & b1 & -> & Hb1).
  { destruct dark; [|eauto]. destruct (Hp 0%N b Hb) as (out & s' & b' & -> & Hb'). eauto. }
  destruct bright; [|eauto]. destruct (Hp 255%N b1 Hb1) as (out & s' & b' & -> & _). eauto.
Qed.

Context (Hsz : (Z.of_nat (W * (h + 2)) < 2 ^ 31)%Z).
(* the point of a pixel *)
Definition pxy (p : nat) : Z * Z := (Z.of_nat (gcol W 1 p), Z.of_nat (grow W 1 p)).
Lemma pxy_gid r c : c < w -> pxy (gid W 1 1 r c) = (Z.of_nat c, Z.of_nat r).
Proof using. clear -HF. intros Hc. destruct (wide_ok w) as [_ Hwide]. unfold pxy. by rewrite (gid_col W 1 1 w), (gid_row W 1 1 w) by lia. Qed.
Lemma gap_lt : (0 <= Z.of_nat (stepgap w) < 32)%Z.
Proof using Hsz.
  clear -Hsz. destruct (wide_ok w) as [H _]. split; [lia|]. destruct (Z.lt_ge_cases (Z.of_nat (stepgap w)) 32) as [|Hge]; [done|]. exfalso.
  assert (2 ^ 32 <= Z.of_nat W)%Z as Hl.
  { rewrite H, Nat2Z.inj_pow. apply Z.pow_le_mono_r; lia. }
  assert (2 ^ 31 < 2 ^ 32)%Z by done. nia.
Qed.
Lemma wpt p : p ∈ nodes -> wpoint W (Z.of_nat (stepgap w)) p = Some (pxy p).
Proof using Hsz.
  intros Hp. destruct (wide_ok w) as [H Hwide]. pose proof gap_lt. apply elem_rect in Hp as (r & c & Hr & Hc & ->). rewrite pxy_gid by done. apply wpoint_xy; [done|lia|lia].
Qed.

Lemma rec_final gm (g0 : N -> nat) (ok : nat -> N -> Prop) rc :
  (forall v, (v < 256)%N -> N.to_nat (wvalue gm v) = g0 v) ->
  (forall g v, g <= 255 -> (v < 256)%N -> g0 v <= g -> ok (wlevel gm g) v) ->
  rec_sound W w h gm P (wgray src step w gm) pxy rc -> wm_level rc <= 255 /\ wrec_ok src step w h P (ok (wm_level rc)) rc.
Proof using HF Hsz.
  intros Hg0 Hok (l & g & L1 & L2 & L3 & L4 & L5 & L6 & L7 & L8 & L9 & L10). destruct (wide_ok w) as [_ Hwide].
  assert (forall p, p ∈ nodes -> exists r c, r < h /\ c < w /\ p = gid W 1 1 r c /\ pxy p = (Z.of_nat c, Z.of_nat r)) as Hn.
  { intros p Hp. apply elem_rect in Hp as (r & c & Hr & Hc & ->). exists r, c. rewrite pxy_gid by done. done. }
  assert (forall p, p ∈ nodes -> in_image w h (pxy p)) as Hin.
  { intros p Hp. destruct (Hn p Hp) as (r & c & Hr & Hc & _ & ->). unfold in_image. cbn [fst snd]. lia. }
  assert (forall p, p ∈ nodes -> wgray src step w gm p <= g -> ok (wlevel gm g) (value_at src step (pxy p))) as Hval.
  { intros p Hp Hle. destruct (Hn p Hp) as (r & c & Hr & Hc & -> & ->). unfold value_at. cbn [fst snd]. rewrite !Nat2Z.id.
    destruct (wsrc src step w h gm HF r c Hr Hc) as (v & -> & Hv & Hgv & _). cbn. apply Hok; [done|done|]. rewrite <-Hg0 by done. lia. }
  assert (forall p q, p ∈ nodes -> adj (wgraph W w h (wgray src step w gm)) p q -> touching (pxy p) (pxy q)) as Htouch.
  { intros p q Hp Ha. apply wgraph_adj in Ha as (d & Hd & Hq). cbn [g_deg g_nbr rect_graph] in Hd, Hq.
    destruct (Hn p Hp) as (r & c & Hr & Hc & -> & ->). unfold rect_nbr in Hq. rewrite (gid_row W 1 1 w), (gid_col W 1 1 w) in Hq by lia. unfold touching.
    destruct d as [|[|[|[|d]]]]; [| | | |lia].
    - destruct (Nat.ltb_spec (S c) w); [|done]. injection Hq as <-. rewrite pxy_gid by lia. cbn [fst snd]. lia.
    - destruct r as [|r]; [done|]. injection Hq as <-. rewrite pxy_gid by lia. cbn [fst snd]. lia.
    - destruct c as [|c]; [done|]. injection Hq as <-. rewrite pxy_gid by lia. cbn [fst snd]. lia.
    - destruct (Nat.ltb_spec (S r) h); [|done]. injection Hq as <-. rewrite pxy_gid by lia. cbn [fst snd]. lia. }
  assert (forall p q, p ∈ nodes -> q ∈ nodes -> pxy p = pxy q -> p = q) as Hinj.
  { intros p q Hp Hq He. destruct (Hn p Hp) as (r & c & Hr & Hc & -> & E1), (Hn q Hq) as (r' & c' & Hr' & Hc' & -> & E2). rewrite E1, E2 in He. injection He as Ec Er.
    apply Nat2Z.inj in Ec, Er. by subst. }
  split. { rewrite L10. unfold wlevel. pose proof (Nat.mod_upper_bound g 256). destruct (gm =? 0)%N; lia. }
  rewrite L10. constructor; rewrite ?L6, ?L7, ?L9, ?map_length.
  - intros E. by apply map_eq_nil in E.
  - apply NoDup_fmap_2_strong; [|done]. intros p q Hp Hq. apply Hinj; auto.
  - apply Forall_fmap. apply Forall_forall. intros p Hp. apply Hin. auto.
  - done.
  - done.
  - apply wbound_hull. { intros E. by apply map_eq_nil in E. }
    intros x y Hxy. apply elem_of_list_fmap in Hxy as (p & He & Hp). destruct (Hn p (L3 p Hp)) as (r & c & Hr & Hc & _ & E). rewrite E in He. injection He as -> ->.
    unfold int_max. assert (2 ^ 31 = 2147483648)%Z as H31 by done. rewrite H31 in Hsz. nia.
  - apply Forall_fmap. apply Forall_forall. intros p Hp. apply Hval; [auto|]. destruct (L5 p p Hp Hp) as (_ & _ & Hle & _). exact Hle.
  - intros x y Hx Hy. apply elem_of_list_fmap in Hx as (p & -> & Hp). apply elem_of_list_fmap in Hy as (q & -> & Hq).
    destruct (L5 p q Hp Hq) as (_ & _ & _ & _ & Hpath). pose proof (L3 p Hp) as Hpn. clear Hp Hq. unfold joined.
    induction Hpath as [p|p z q Hs _ IH]; [apply rtc_refl|]. destruct Hs as (_ & Ha & Hg1 & Hg2).
    assert (z ∈ nodes) as Hz. { eapply (gok_closed _ (wgraph_ok W w h (wgray src step w gm) Hwide)); [exact Hpn|exact Ha]. }
    eapply rtc_l; [|by apply IH]. split; [by apply Htouch|]. split; [by apply Hin|]. split; [by apply Hin|]. split; by apply Hval.
Qed.

(* C99 *)
Theorem w_call_records n dark bright b r0 r1 : wbuf_ok w h b ->
  6 * (w * h) < n -> w_call n src step w h P (Z.of_nat (stepgap w)) dark bright b = Some (r0, r1) ->
  (forall rc, rc ∈ r0 -> wm_level rc <= 255 /\ wrec_ok src step w h P (fun v => (255 - N.of_nat (wm_level rc) <= v)%N) rc) /\
  (forall rc, rc ∈ r1 -> wm_level rc <= 255 /\ wrec_ok src step w h P (fun v => (v <= 255 - N.of_nat (wm_level rc))%N) rc).
Proof using HF Hsz.
  intros Hb Hn. unfold w_call.
  assert (forall gm b, wbuf_ok w h b -> exists out s' b', w_pass n src step w h P (Z.of_nat (stepgap w)) gm b = Some (out, s', b') /\ wbuf_ok w h b' /\
    Forall (rec_sound W w h gm P (wgray src step w gm) pxy) out /\ recs_ok W w h P pxy out) as Hp.
  { intros gm b0 Hb0. apply wpass_ok; auto. apply wpt. }
  assert (exists r b1, (if dark then match w_pass n src step w h P (Z.of_nat (stepgap w)) 0 b with Some (r, _, b') => Some (r, b') | None => None end else Some ([], b)) = Some (r, b1) /\ wbuf_ok w h b1 /\
    Forall (rec_sound W w h 0 P (wgray src step w 0) pxy) r) as (r & b1 & -> & Hb1 & H0).
  { destruct dark; [|eauto]. destruct (Hp 0%N b Hb) as (out & s' & b' & -> & Hb' & H & _). eauto. }
  assert (forall rc, rc ∈ r -> wm_level rc <= 255 /\ wrec_ok src step w h P (fun v => (255 - N.of_nat (wm_level rc) <= v)%N) rc) as HR0.
  { intros rc Hrc. rewrite Forall_forall in H0. apply (rec_final 0 (fun v => N.to_nat (255 - v)) (fun lv v => (255 - N.of_nat lv <= v)%N)); auto.
    intros g v Hg Hv Hle. unfold wlevel. cbn [N.eqb]. rewrite Nat.mod_small by lia. lia. }
  destruct bright.
  - destruct (Hp 255%N b1 Hb1) as (out & s' & b' & -> & _ & H1 & _). intros [= <- <-]. split; [exact HR0|].
    intros rc Hrc. rewrite Forall_forall in H1. apply (rec_final 255 N.to_nat (fun lv v => (v <= 255 - N.of_nat lv)%N)); auto.
    intros g v Hg Hv Hle. unfold wlevel. cbn [N.eqb]. rewrite Nat.mod_small by lia. lia.
  - intros [= <- <-]. split; [exact HR0|]. intros rc Hrc. by apply elem_of_nil in Hrc.
Qed.

Lemma recs_final gm out : Forall (rec_sound W w h gm P (wgray src step w gm) pxy) out -> recs_ok W w h P pxy out -> all_apart P out.
Proof using HF Hsz.
  intros HS (ls & H2 & Hpair) i j a b Ha Hb Hij. destruct (wide_ok w) as [_ Hwide].
  destruct (Forall2_lookup_r _ _ _ _ _ H2 Ha) as (la & Hla & Ea & Na). destruct (Forall2_lookup_r _ _ _ _ _ H2 Hb) as (lb & Hlb & Eb & Nb).
  rewrite Forall_forall in HS. destruct (HS a ltac:(by eapply elem_of_list_lookup_2)) as (l1 & _ & A1 & _ & _ & _ & _ & A2 & A3 & _).
  destruct (HS b ltac:(by eapply elem_of_list_lookup_2)) as (l2 & _ & B1 & B0 & B0' & _ & _ & B2 & B3 & _).
  assert (wm_size a = length la) as Sa. { rewrite A3. rewrite A2 in Ea. apply (f_equal length) in Ea. by rewrite !map_length in Ea. }
  assert (wm_size b = length lb) as Sb. { rewrite B3. rewrite B2 in Eb. apply (f_equal length) in Eb. by rewrite !map_length in Eb. }
  assert (0 < wm_size b) as Hpos. { rewrite B3. destruct l2; [done|cbn; lia]. }
  assert (Z.of_nat (wm_size b) < 2 ^ 31)%Z as Hlt.
  { assert (length l2 <= length nodes) as Hle by (by apply submseteq_length, NoDup_submseteq). rewrite length_rect in Hle. rewrite B3.
    assert (w * h <= W * (h + 2)) by nia. lia. }
  assert (forall p q, p ∈ nodes -> q ∈ nodes -> pxy p = pxy q -> p = q) as Hinj.
  { intros p q Hp Hq He. apply elem_rect in Hp as (r & c & Hr & Hc & ->), Hq as (r' & c' & Hr' & Hc' & ->). rewrite !pxy_gid in He by done. injection He as Ec Er.
    apply Nat2Z.inj in Ec, Er. by subst. }
  unfold apart. rewrite Ea, Eb. destruct (Hpair i j la lb Hla Hlb Hij) as [Hd|[Hs (st & Hst & Hdiv)]].
  - left. intros p Hp Hp'. apply elem_of_list_fmap in Hp as (x & -> & Hx), Hp' as (y & E & Hy). apply Hinj in E; auto. subst y. by apply (Hd x).
  - right. split; [intros p Hp; apply elem_of_list_fmap in Hp as (x & -> & Hx); apply elem_of_list_fmap; eauto|].
    rewrite <-Sb in *. rewrite <-Sa in *. assert (diverse P (wm_size b) (wm_size a) = true) as Hdab by (eapply diverse_mono; [|exact Hst| |]; done). split; [exact Hdab|].
    intros Hdup. destruct (Nat.lt_ge_cases (wm_size a) (wm_size b)) as [|Hge]; [done|]. exfalso. assert (wm_size a = wm_size b) as E by lia. rewrite E in Hdab.
    rewrite diverse_same in Hdab by done. done.
Qed.

(* C100 *)
Theorem w_call_apart n dark bright b r0 r1 : wbuf_ok w h b ->
  6 * (w * h) < n -> w_call n src step w h P (Z.of_nat (stepgap w)) dark bright b = Some (r0, r1) -> all_apart P r0 /\ all_apart P r1.
Proof using HF Hsz.
  intros Hb Hn. unfold w_call.
  assert (forall gm b, wbuf_ok w h b -> exists out s' b', w_pass n src step w h P (Z.of_nat (stepgap w)) gm b = Some (out, s', b') /\ wbuf_ok w h b' /\ all_apart P out) as Hp.
  { intros gm b0 Hb0. destruct (wpass_ok src step w h gm HF n P (Z.of_nat (stepgap w)) pxy b0 Hb0 Hn wpt) as (out & s' & b' & H1 & H2 & H3 & H4).
    exists out, s', b'. split; [done|]. split; [done|]. by eapply recs_final. }
  assert (all_apart P []) as Hnil. { intros i j x y H. rewrite lookup_nil in H. done. }
  assert (exists r b1, (if dark then match w_pass n src step w h P (Z.of_nat (stepgap w)) 0 b with Some (r, _, b') => Some (r, b') | None => None end else Some ([], b)) = Some (r, b1) /\ wbuf_ok w h b1 /\
    all_apart P r) as (r & b1 & -> & Hb1 & H0).
  { destruct dark; [|eauto]. destruct (Hp 0%N b Hb) as (out & s' & b' & -> & Hb' & H). eauto. }
  destruct bright.
  - destruct (Hp 255%N b1 Hb1) as (out & s' & b' & -> & _ & H1). intros [= <- <-]. done.
  - intros [= <- <-]. done.
Qed.
End res.
