(* The copying of Fast MSER V1's extraction: every schedule writes the points of the top
   regions one after the other, if the workers' shares cover them. *)
From stdpp Require Import sorting relations functions list_numbers list.
From Coq Require Import NArith ZArith SpecFloat.
From Verif Require Import FloodModel ConnectModel PartModel WholeModel FloatModel RecogModel RecogSched RectModel ExtractModel
  V1JoinModel V1Model V1BuildModel V1Build V1RecogModel V1ExtractModel.
Local Open Scope nat_scope.

(* SPEC: the coordinates of a point *)
Definition crd (Pt : list (list wpt)) (q : rref) : nat * nat :=
  match get2 Pt q with Some x => (t_x x, t_y x) | None => (0, 0) end.

Lemma walk_len Pt n : forall o l, point_walk Pt n o = Some l -> length l = n.
Proof.
  induction n as [|n IH]; intros o l; cbn [point_walk]; [by intros [= <-]|]. destruct o as [q|]; [|done].
  destruct (get2 Pt q) as [x|]; [|done]. destruct (point_walk Pt n (t_next x)) as [l'|] eqn:E; [|done]. intros [= <-].
  cbn. f_equal. eauto.
Qed.
Lemma walk_pixels Pt n : forall o l, point_walk Pt n o = Some l -> pixel_walk Pt n o = Some (crd Pt <$> l).
Proof.
  induction n as [|n IH]; intros o l; cbn [point_walk pixel_walk]; [by intros [= <-]|]. destruct o as [q|]; [|done].
  destruct (get2 Pt q) as [x|] eqn:Ex; [|done]. destruct (point_walk Pt n (t_next x)) as [l'|] eqn:E; [|done]. intros [= <-].
  rewrite (IH _ _ E). cbn [fmap list_fmap]. unfold crd at 2. by rewrite Ex.
Qed.

Section copy.
Context (F : list (list wreg)) (Pt : list (list wpt)) (seg : rref -> list rref) (tops : list rref).
Context (Htop : forall r, r ∈ tops -> exists a, get2 F r = Some a /\ point_walk Pt (Z.to_nat (w_size a)) (w_head a) = Some (seg r)).
Notation M := (concat (seg <$> tops)).
Context (HM : NoDup M).

Definition written (t : xmem) (i : nat) : Prop :=
  forall q, M !! i = Some q -> xm_mem t !! i = Some (Some (crd Pt q)) /\ xm_ref t q = Some i.
Definition wleft (w : xwk) : nat := xk_left w + length (concat (seg <$> xk_todo w)) + length (xk_todo w).
Record wok (o e : nat) (t : xmem) (w : xwk) : Prop := {
  wo_todo : forall r, r ∈ xk_todo w -> r ∈ tops;
  wo_walk : exists A pre post, point_walk Pt (xk_left w) (xk_pt w) = Some A /\
    M = pre ++ (A ++ concat (seg <$> xk_todo w)) ++ post /\ length pre = xk_mem w /\
    (o = e \/ xk_mem w + length (A ++ concat (seg <$> xk_todo w)) = e);
  wo_done : forall i, o <= i < xk_mem w -> written t i
}.

Lemma wok_mono o e t t' w : (forall i, written t i -> written t' i) -> wok o e t w -> wok o e t' w.
Proof using All. intros H [W1 W2 W3]. constructor; auto. Qed.

Lemma xstep_ok o e t w : length (xm_mem t) = length M -> wok o e t w ->
  exists t' w', xstep F Pt t w = Some (t', w') /\ wok o e t' w' /\ (forall i, written t i -> written t' i) /\
    length (xm_mem t') = length M /\ wleft w' = wleft w - 1.
Proof using All.
  intros HL [W1 (A & pre & post & E1 & E2 & E3 & E4) W3]. unfold xstep, wleft. destruct w as [todo pt rest off]. cbn [xk_left xk_todo xk_pt xk_mem] in *.
  destruct rest as [|rest].
  - cbn [point_walk] in E1. injection E1 as <-. cbn [app] in *. destruct todo as [|r todo].
    { exists t, (XWk [] pt 0 off). cbn. split; [done|]. split; [|done]. constructor; cbn; auto. exists [], pre, post. auto. }
    destruct (Htop r) as (a & Ha & Hw). { apply W1. constructor. } rewrite Ha. eexists _, _. split; [done|]. split; [|split; [done|split; [done|]]].
    + constructor; cbn; auto. { intros r' Hr'. apply W1. by constructor. } exists (seg r), pre, post. cbn in E2, E4. auto.
    + cbn [xk_left xk_todo]. rewrite <-(walk_len _ _ _ _ Hw). cbn [length fmap list_fmap concat]. rewrite app_length. lia.
  - cbn [point_walk] in E1. destruct pt as [q|]; [|done]. destruct (get2 Pt q) as [x|] eqn:Ex; [|done].
    destruct (point_walk Pt rest (t_next x)) as [A'|] eqn:EA; [|done]. injection E1 as <-.
    assert (M !! off = Some q) as Hq. { rewrite E2, lookup_app_r by lia. rewrite E3, Nat.sub_diag. done. }
    assert (off < length M) as Hlt by (by eapply lookup_lt_Some). rewrite (proj2 (Nat.ltb_lt _ _)) by lia.
    assert (forall i, written t i -> written (XMem (<[off:=Some (t_x x, t_y x)]> (xm_mem t)) (<[q:=Some off]> (xm_ref t))) i) as Hmono.
    { intros i Hi q' Hq'. cbn [xm_mem xm_ref]. destruct (decide (i = off)) as [->|Hne].
      - assert (q' = q) as -> by congruence. rewrite list_lookup_insert by lia. rewrite fn_lookup_insert. split; [|done].
        unfold crd. by rewrite Ex.
      - destruct (Hi q' Hq') as [H1 H2]. rewrite list_lookup_insert_ne by done. rewrite fn_lookup_insert_ne; [done|].
        intros <-. apply Hne. eapply NoDup_lookup; eauto. }
    eexists _, _. split; [done|]. split; [|split; [done|split]].
    + constructor; cbn [xk_left xk_todo xk_pt xk_mem]; auto.
      * exists A', (pre ++ [q]), post. split; [done|]. split; [rewrite E2; by rewrite <-!app_assoc|]. rewrite app_length. cbn.
        split; [lia|]. destruct E4 as [?|E4]; [by left|right]. cbn in E4. lia.
      * intros i Hi. destruct (decide (i = off)) as [->|Hne]; [|apply Hmono, W3; lia].
        intros q' Hq'. assert (q' = q) as -> by congruence. cbn [xm_mem xm_ref]. rewrite list_lookup_insert by lia. rewrite fn_lookup_insert.
        split; [|done]. unfold crd. by rewrite Ex.
    + cbn [xm_mem]. by rewrite insert_length.
    + cbn [xk_left xk_todo]. lia.
Qed.

Lemma xrun_ok (o e : nat -> nat) sched : forall t ws, Forall (fun k => k < length ws) sched -> length (xm_mem t) = length M ->
  (forall k w, ws !! k = Some w -> wok (o k) (e k) t w) ->
  exists t' ws', xrun F Pt sched t ws = Some (t', ws') /\ length ws' = length ws /\ length (xm_mem t') = length M /\
    (forall k w, ws' !! k = Some w -> wok (o k) (e k) t' w) /\
    (forall k w, ws !! k = Some w -> exists w', ws' !! k = Some w' /\ wleft w' = wleft w - moves k sched).
Proof using All.
  induction sched as [|k sched IH]; intros t ws Hs HL Hw.
  { exists t, ws. split_and!; auto. intros k w Hk. exists w. cbn. split; auto. lia. }
  apply Forall_cons in Hs as [Hk Hs]. destruct (lookup_lt_is_Some_2 ws k Hk) as [w Ew]. cbn [xrun]. rewrite Ew.
  destruct (xstep_ok (o k) (e k) t w HL (Hw k w Ew)) as (t1 & w1 & -> & H1 & H2 & H3 & H4).
  destruct (IH t1 (<[k := w1]> ws)) as (t' & ws' & E & L1 & L2 & G1 & G2).
  - by rewrite insert_length.
  - done.
  - intros k' w' Hk'. destruct (decide (k' = k)) as [->|Hne].
    + rewrite list_lookup_insert in Hk' by done. by injection Hk' as <-.
    + rewrite list_lookup_insert_ne in Hk' by done. eapply wok_mono; eauto.
  - rewrite insert_length in L1. exists t', ws'. split_and!; auto. intros k' w' Hk'. cbn [moves].
    destruct (Nat.eqb_spec k' k) as [->|Hne].
    + destruct (G2 k w1) as (w2 & Hw2 & E2); [by rewrite list_lookup_insert|]. exists w2. split; auto.
      assert (w' = w) as -> by congruence. rewrite E2. lia.
    + destruct (G2 k' w') as (w2 & Hw2 & E2); [by rewrite list_lookup_insert_ne|]. exists w2. split; auto.
Qed.

Lemma left_done w : wleft w = 0 -> xdone w = true.
Proof using All. unfold wleft, xdone. destruct w as [todo pt rest off]. cbn. destruct rest; [|lia]. destruct todo; [done|]. cbn. lia. Qed.

(* all written: the memory is determined *)
Lemma all_written t : length (xm_mem t) = length M -> (forall i, i < length M -> written t i) ->
  xm_mem t = (fun q => Some (crd Pt q)) <$> M /\ forall i q, M !! i = Some q -> xm_ref t q = Some i.
Proof using All.
  intros HL Hi. split.
  - apply list_eq_same_length with (n := length M); [by rewrite fmap_length|done|]. intros i x y Hlt Hx Hy.
    rewrite list_lookup_fmap in Hy. destruct (M !! i) as [q|] eqn:Hq; [|done]. injection Hy as <-.
    destruct (Hi i Hlt q Hq) as [H _]. congruence.
  - intros i q Hq. apply (Hi i); auto. by eapply lookup_lt_Some.
Qed.

Lemma copy_ok (b : nat -> nat) ws sched : b 0 = 0 -> (forall k, k < length ws -> b k <= b (S k)) -> b (length ws) = length M ->
  (forall k w, ws !! k = Some w -> wleft w <= moves k sched /\
     wok (b k) (b (S k)) (XMem (replicate (length M) None) (fun _ => None)) w) ->
  Forall (fun k => k < length ws) sched ->
  exists t ws', xrun F Pt sched (XMem (replicate (length M) None) (fun _ => None)) ws = Some (t, ws') /\ forallb xdone ws' = true /\
    xm_mem t = (fun q => Some (crd Pt q)) <$> M /\ (forall i q, M !! i = Some q -> xm_ref t q = Some i).
Proof using All.
  intros B0 Bm Bn Hw Hs.
  destruct (xrun_ok b (fun k => b (S k)) sched (XMem (replicate (length M) None) (fun _ => None)) ws Hs (replicate_length _ _) (fun k w Hk => proj2 (Hw k w Hk)))
    as (t & ws' & E & L1 & L2 & G1 & G2).
  assert (forall k w, ws' !! k = Some w -> wleft w = 0) as Hz.
  { intros k w' Hk. destruct (lookup_lt_is_Some_2 ws k) as [w Hwk]. { rewrite <-L1. by eapply lookup_lt_Some. }
    destruct (G2 k w Hwk) as (w2 & Hw2 & E2). assert (w2 = w') as -> by congruence. destruct (Hw k w Hwk). lia. }
  exists t, ws'. split; auto. split.
  { apply forallb_forall. intros w Hw'. apply elem_of_list_In, elem_of_list_lookup in Hw' as (k & Hk). apply left_done. eauto. }
  apply all_written; auto. intros i Hi.
  assert (exists k, k < length ws /\ b k <= i < b (S k)) as (k & Hk & Hik).
  { rewrite <-Bn in Hi. clear -Hi B0. generalize dependent (length ws). intros n. induction n as [|n IH]; intros Hi; [lia|].
    destruct (decide (i < b n)) as [H|H]; [destruct (IH H) as (k & ? & ?); exists k; split; [lia|done]|]. exists n. lia. }
  destruct (lookup_lt_is_Some_2 ws' k) as [w Hwk]; [lia|]. destruct (G1 k w Hwk) as [W1 (A & pre & post & E1 & E2 & E3 & E4) W3].
  destruct E4 as [?|E4]; [lia|]. apply W3. split; [lia|]. specialize (Hz k w Hwk). unfold wleft in Hz. assert (xk_left w = 0) as Hl0 by lia. rewrite Hl0 in E1. injection E1 as <-.
  cbn [app] in E4. lia.
Qed.
End copy.

(* ---------- the shares of the workers ---------- *)
Section plan.
Context (zs : list nat) (n : nat) (Hn : 0 < n).
Notation N := (sum_list zs). Notation q := (sum_list zs / n).
Definition sumz (i : nat) : nat := sum_list (take i zs).

Record shares (b : nat -> nat) (index c : nat) (stops offs : list nat) : Prop := {
  sh_len : length stops = n /\ length offs = n;
  sh_index : index < n;
  sh_end : c <= length zs;
  sh_start : b 0 = 0;
  sh_inc : forall j, j < index -> b j < b (S j);
  sh_last : b index <= c;
  sh_stop : forall j, j < index -> stops !! j = Some (b (S j) - 1);
  sh_cur : stops !! index = Some (if b index <? c then c - 1 else 0);
  sh_rest : forall j, index < j < n -> stops !! j = Some 0 /\ offs !! j = Some 0;
  sh_off : forall j, j <= index -> offs !! j = Some (sumz (b j))
}.

Lemma sumz_S i z : zs !! i = Some z -> sumz (S i) = sumz i + z.
Proof using All.
  intros H. unfold sumz. rewrite (take_S_r _ _ _ H). clear. induction (take i zs) as [|x l IH]; cbn in *; lia.
Qed.
Lemma sumz_le i : sumz i <= N.
Proof using All.
  unfold sumz. rewrite <-(take_drop i zs) at 2. generalize (take i zs) (drop i zs). clear. intros a b. induction a as [|x l IH]; cbn in *; lia.
Qed.

Lemma plan_loop zs' : forall i cur par index stops offs b, zs' = drop i zs -> i <= length zs ->
  par = q * S index -> cur = sumz i -> shares b index i stops offs ->
  exists b' index' c stops' offs', v1_plan n q zs' i cur par index stops offs = (stops', offs') /\
    shares b' index' c stops' offs' /\ (c = length zs \/ N - sumz c + 2 <= n) /\ i <= c /\ (zs' <> [] -> i < c).
Proof using All.
  induction zs' as [|z zs' IH]; intros i cur par index stops offs b Hz Hi Hpar Hcur HS.
  { exists b, index, i, stops, offs. split; [done|]. split; [done|]. split; [|done]. left.
    apply (f_equal length) in Hz. rewrite drop_length in Hz. cbn in Hz. lia. }
  assert (zs !! i = Some z) as Hzi. { rewrite <-(Nat.add_0_r i), <-lookup_drop, <-Hz. done. }
  assert (i < length zs) as Hlt by (by eapply lookup_lt_Some).
  assert (zs' = drop (S i) zs) as Hz'. { rewrite (drop_S _ _ _ Hzi) in Hz. by injection Hz. }
  pose proof (sumz_S i z Hzi) as HSz. destruct HS as [[L1 L2] S2 S3 S4 S5 S6 S7 S8 S9 S10]. cbn [v1_plan].
  assert (shares b index (S i) (<[index := i]> stops) offs) as HS1.
  { constructor; auto; try lia.
    - by rewrite insert_length.
    - intros j Hj. rewrite list_lookup_insert_ne by lia. auto.
    - rewrite list_lookup_insert by lia. destruct (Nat.ltb_spec (b index) (S i)); [|lia]. f_equal. lia.
    - intros j Hj. rewrite list_lookup_insert_ne by lia. auto. }
  destruct (Nat.ltb_spec par (cur + z)) as [Hgt|Hle].
  - destruct (Nat.eqb_spec (S index) n) as [He|Hne].
    + exists b, index, (S i), (<[index := i]> stops), offs. split; [done|]. split; [done|]. split; [|lia]. right.
      pose proof (Nat.div_mod N n ltac:(lia)). pose proof (Nat.mod_upper_bound N n ltac:(lia)). pose proof (sumz_le (S i)).
      rewrite He in Hpar. nia.
    + set (b1 := fun j => if j <=? index then b j else S i).
      assert (forall j, j <= index -> b1 j = b j) as Hb1. { intros j Hj. unfold b1. by rewrite (proj2 (Nat.leb_le _ _)) by lia. }
      assert (b1 (S index) = S i) as Hb2. { unfold b1. by rewrite (proj2 (Nat.leb_gt _ _)) by lia. }
      destruct (IH (S i) (cur + z) (par + q) (S index) (<[index := i]> stops) (<[S index := cur + z]> offs) b1)
        as (b' & index' & c & stops' & offs' & E & G1 & G2 & G3 & _); auto; try lia; [|exists b', index', c, stops', offs'; split_and!; auto; lia].
      destruct HS1 as [[M1 M2] _ _ _ _ _ M7 M8 M9 M10]. constructor; try lia.
      * rewrite !insert_length. auto.
      * rewrite Hb1; [done|lia].
      * intros j Hj. destruct (decide (j = index)) as [->|]; [rewrite Hb1, Hb2 by lia; lia|]. rewrite !Hb1 by lia. apply S5. lia.
      * intros j Hj. destruct (decide (j = index)) as [->|]; [|rewrite Hb1 by lia; apply M7; lia].
        rewrite Hb2, M8. destruct (Nat.ltb_spec (b index) (S i)); [|lia]. done.
      * destruct (Nat.ltb_spec (b1 (S index)) (S i)); [lia|]. destruct (M9 (S index)) as [-> _]; [lia|done].
      * intros j Hj. rewrite (list_lookup_insert_ne offs) by lia. apply M9. lia.
      * intros j Hj. destruct (decide (j = S index)) as [->|].
        -- rewrite list_lookup_insert by lia. rewrite Hb2. f_equal. lia.
        -- rewrite list_lookup_insert_ne by lia. rewrite Hb1 by lia. apply M10. lia.
  - destruct (IH (S i) (cur + z) par index (<[index := i]> stops) offs b)
      as (b' & index' & c & stops' & offs' & E & G1 & G2 & G3 & _); auto; try lia. exists b', index', c, stops', offs'. split_and!; auto. lia.
Qed.

(* each worker gets a run of regions and the offset of the first; the runs follow each other *)
Lemma plan_ok stops offs : zs <> [] -> v1_plan n q zs 0 0 q 0 (replicate n 0) (replicate n 0) = (stops, offs) ->
  exists b c, b 0 = 0 /\ (forall k, k < n -> b k <= b (S k)) /\ b n = c /\ c <= length zs /\
    (c = length zs \/ N - sumz c + 2 <= n) /\ length stops = n /\ length offs = n /\
    forall k, k < n -> exists stop off start, stops !! k = Some stop /\ offs !! k = Some off /\
      (match k with O => Some 0 | S k' => S <$> stops !! k' end) = Some start /\ off <= sumz (b k) /\
      (b k < b (S k) -> start = b k /\ S stop = b (S k) /\ off = sumz (b k)) /\
      (b k = b (S k) -> S stop <= start).
Proof using All.
  intros Hne E.
  destruct (plan_loop zs 0 0 q 0 (replicate n 0) (replicate n 0) (fun _ => 0)) as (b & index & c & stops' & offs' & E' & HS & Hc & _ & Hcp); auto; try lia.
  { constructor; auto; try lia.
    - by rewrite !replicate_length.
    - rewrite lookup_replicate_2 by lia. done.
    - intros j Hj. rewrite !lookup_replicate_2 by lia. done.
    - intros j Hj. rewrite lookup_replicate_2 by lia. done. }
  rewrite E in E'. injection E' as <- <-. destruct HS as [[L1 L2] S2 S3 S4 S5 S6 S7 S8 S9 S10].
  set (b1 := fun j => if j <=? index then b j else c).
  assert (forall j, j <= index -> b1 j = b j) as Hb1. { intros j Hj. unfold b1. by rewrite (proj2 (Nat.leb_le _ _)) by lia. }
  assert (forall j, index < j -> b1 j = c) as Hb2. { intros j Hj. unfold b1. by rewrite (proj2 (Nat.leb_gt _ _)) by lia. }
  assert (forall j, j <= index -> j <= b j) as Hge.
  { intros j. induction j as [|j IH]; intros Hj; [lia|]. specialize (IH ltac:(lia)). specialize (S5 j ltac:(lia)). lia. }
  assert (0 < c) as Hc0 by auto.
  exists b1, c. split; [rewrite Hb1 by lia; done|]. split.
  { intros k Hk. destruct (decide (k < index)); [rewrite !Hb1 by lia; specialize (S5 k ltac:(lia)); lia|].
    rewrite (Hb2 (S k)) by lia. destruct (decide (k = index)) as [->|]; [rewrite Hb1 by lia; lia|rewrite Hb2 by lia; lia]. }
  split; [apply Hb2; lia|]. split; [done|]. split; [done|]. split; [done|]. split; [done|]. intros k Hk.
  destruct (decide (k < index)) as [Hki|Hki]; [|destruct (decide (k = index)) as [->|Hki2]].
  - exists (b (S k) - 1), (sumz (b k)), (b k). rewrite S7, S10 by lia. split; [done|]. split; [done|]. split.
    { destruct k as [|k]; [by rewrite S4|]. rewrite S7 by lia. cbn. f_equal. specialize (Hge (S k) ltac:(lia)). lia. }
    rewrite !Hb1 by lia. split; [done|]. specialize (S5 k Hki). split; [|lia]. intros _. split; [done|]. split; [lia|done].
  - rewrite Hb1, Hb2 by lia. exists (if b index <? c then c - 1 else 0), (sumz (b index)), (b index). rewrite S8, S10 by lia.
    split; [done|]. split; [done|]. split.
    { destruct index as [|k]; [by rewrite S4|]. rewrite S7 by lia. cbn. f_equal. specialize (Hge (S k) ltac:(lia)). lia. }
    split; [done|]. destruct (Nat.ltb_spec (b index) c) as [H|H]; (split; [|lia]); [intros _; split; [done|]; split; [lia|done]|lia].
  - destruct (S9 k ltac:(lia)) as [Q1 Q2]. rewrite !Hb2 by lia. destruct k as [|k]; [lia|].
    assert (is_Some (stops !! k)) as [u Hu] by (apply lookup_lt_is_Some_2; lia).
    exists 0, 0, (S u). rewrite Hu. split; [done|]. split; [done|]. split; [done|]. split; [lia|]. split; lia.
Qed.
End plan.
