(* The first part of extraction: every region finds the reported region that holds its
   pixels; the reported regions form a forest of records. *)
From stdpp Require Import sorting relations functions list_numbers list.
From Coq Require Import NArith ZArith.
From Verif Require Import FloodModel ConnectModel ConnectProof PartModel WholeModel FloatModel RecogModel RectModel ExtractModel ExtractAbs.
Local Open Scope nat_scope.

Lemma sum_app a b : sum_list (a ++ b) = sum_list a + sum_list b.
Proof. induction a as [|x a IH]; cbn; [done|]. unfold id in *. lia. Qed.

Section link.
Context (F0 : forest) (l : list rref) (dd : rref -> nat) (fuel : nat).
Definition stored0 (o : option rref) : Prop := forall y, o = Some y -> is_Some (fget F0 y).
Context (Hid : forall x a, fget F0 x = Some a -> (g_patch a, g_idx a) = x).
Context (Hpar : forall x a y, fget F0 x = Some a -> g_par a = Some y -> is_Some (fget F0 y) /\ dd y < dd x).
Context (Hfuel : forall x, is_Some (fget F0 x) -> dd x + 1 < fuel).
Context (Hl : NoDup l) (Hlv : forall z, z ∈ l <-> exists a, fget F0 z = Some a /\ g_flag a = 2).

(* ---------- the nearest reported region ---------- *)
Definition odd (o : option rref) : nat := match o with Some y => S (dd y) | None => 0 end.
Definition NR (o : option rref) : option rref :=
  match find_valid fuel F0 o with Some r => r | None => None end.
Definition NP (x : rref) : option rref := match fget F0 x with Some a => NR (g_par a) | None => None end.

Lemma find_more n m F o r : find_valid n F o = Some r -> n <= m -> find_valid m F o = Some r.
Proof.
  revert m o. induction n as [|n IH]; intros [|m] o H Hm; cbn in *; try done; try lia.
  destruct o as [y|]; [|done]. destruct (fget F y) as [b|]; [|done]. destruct (g_flag b =? 2); [done|]. apply IH; auto. lia.
Qed.
Lemma par_stored0 x a : fget F0 x = Some a -> stored0 (g_par a).
Proof. intros Ha y Hy. by eapply Hpar. Qed.
Lemma par_odd x a : fget F0 x = Some a -> odd (g_par a) <= dd x.
Proof. intros Ha. destruct (g_par a) as [y|] eqn:E; cbn; [|lia]. destruct (Hpar x a y Ha E). lia. Qed.
Lemma find_some n o : stored0 o -> odd o < n -> exists r, find_valid n F0 o = Some r.
Proof.
  revert o. induction n as [|n IH]; intros o Hs Hn; [lia|]. cbn. destruct o as [y|]; [|eauto].
  destruct (Hs y eq_refl) as [b Hb]. rewrite Hb. destruct (g_flag b =? 2); [eauto|].
  apply IH; [by eapply par_stored0|]. pose proof (par_odd y b Hb). cbn in Hn. lia.
Qed.
Lemma odd_fuel o : stored0 o -> odd o < fuel \/ (o = None /\ fuel = 0).
Proof.
  destruct o as [y|]; cbn; intros Hs.
  - left. pose proof (Hfuel y (Hs y eq_refl)). lia.
  - destruct fuel; [auto|left; lia].
Qed.
Lemma NR_find n o : stored0 o -> odd o < n -> find_valid n F0 o = Some (NR o).
Proof.
  intros Hs Hn. destruct (find_some n o Hs Hn) as [r Hr]. rewrite Hr. f_equal. unfold NR.
  destruct (odd_fuel o Hs) as [Hf|[-> Hf]].
  - destruct (find_some fuel o Hs Hf) as [r' Hr']. rewrite Hr'.
    destruct (decide (n <= fuel)) as [H|H].
    + pose proof (find_more _ _ _ _ _ Hr H). congruence.
    + pose proof (find_more _ fuel _ _ _ Hr'). pose proof (find_more _ n _ _ _ Hr'). rewrite H1 in Hr by lia. congruence.
  - rewrite Hf. cbn. destruct n; [lia|]. cbn in Hr. congruence.
Qed.
Lemma NR_none : NR None = None.
Proof. unfold NR. by destruct fuel. Qed.
Lemma NR_some y b : fget F0 y = Some b -> NR (Some y) = if g_flag b =? 2 then Some y else NR (g_par b).
Proof.
  intros Hb. assert (stored0 (Some y)) as Hs by (intros ? [= <-]; eauto).
  assert (exists m, m = S (dd y)) as [m Hm] by eauto.
  pose proof (NR_find (S m) (Some y) Hs ltac:(cbn; lia)) as E. cbn [find_valid] in E. rewrite Hb in E.
  destruct (g_flag b =? 2); [congruence|]. rewrite (NR_find m (g_par b)) in E; [congruence|by eapply par_stored0|].
  pose proof (par_odd y b Hb). lia.
Qed.
Lemma NP_eq x a : fget F0 x = Some a -> NP x = NR (g_par a).
Proof. intros Ha. unfold NP. by rewrite Ha. Qed.

Lemma NR_spec n o z : stored0 o -> odd o < n -> NR o = Some z ->
  (exists c, fget F0 z = Some c /\ g_flag c = 2) /\ S (dd z) <= odd o.
Proof.
  revert o. induction n as [|n IH]; intros o Hs Hn Hz; [lia|]. destruct o as [y|]; [|by rewrite NR_none in Hz].
  destruct (Hs y eq_refl) as [b Hb]. rewrite (NR_some y b Hb) in Hz.
  destruct (Nat.eqb_spec (g_flag b) 2) as [Hf|Hf].
  - injection Hz as <-. split; [eauto|done].
  - pose proof (par_odd y b Hb). cbn in Hn. destruct (IH (g_par b)) as [? ?]; auto; [by eapply par_stored0|lia|].
    split; auto. cbn. lia.
Qed.
Lemma NR_valid o z : stored0 o -> NR o = Some z -> z ∈ l /\ S (dd z) <= odd o.
Proof. intros Hs Hz. destruct (NR_spec (S (odd o)) o z Hs) as [? ?]; auto. split; auto. by apply Hlv. Qed.

(* ---------- forests that differ in shortcuts only ---------- *)
Definition short (x : rref) (a0 a : greg) : Prop :=
  a = set_par a0 (g_par a) /\ stored0 (g_par a) /\ odd (g_par a) <= dd x /\ NR (g_par a) = NR (g_par a0).
Record rel (F : forest) : Prop := {
  rl_shape : length <$> F = length <$> F0;
  rl_reg : forall x a0, fget F0 x = Some a0 -> exists a, fget F x = Some a /\ short x a0 a
}.
Lemma short_refl x a : fget F0 x = Some a -> short x a a.
Proof. intros Ha. split; [by destruct a|]. split; [by eapply par_stored0|]. split; [by eapply par_odd|done]. Qed.
Lemma rel_refl : rel F0.
Proof. constructor; auto. intros x a Ha. exists a. split; auto. by apply short_refl. Qed.
Lemma rel_get F x a : rel F -> fget F x = Some a -> exists a0, fget F0 x = Some a0 /\ short x a0 a.
Proof.
  intros HR Ha. assert (is_Some (fget F0 x)) as [a0 Ha0].
  { unfold fget in *. destruct x as [k i]; cbn [fst snd] in *. destruct (F !! k) as [r|] eqn:E; [|done].
    assert ((length <$> F) !! k = Some (length r)) as H1 by (by rewrite list_lookup_fmap, E).
    rewrite (rl_shape _ HR), list_lookup_fmap in H1. destruct (F0 !! k) as [r0|]; [|done]. injection H1 as H1.
    apply lookup_lt_is_Some. apply lookup_lt_Some in Ha. lia. }
  exists a0. split; auto. destruct (rl_reg _ HR x a0 Ha0) as (a' & Ha' & Hs). congruence.
Qed.
Lemma rel_set F x a0 a p : rel F -> fget F0 x = Some a0 -> fget F x = Some a -> stored0 p -> odd p <= dd x -> NR p = NR (g_par a0) ->
  rel (fset F x (set_par a p)).
Proof.
  intros HR Ha0 Ha H1 H2 H3. constructor; [rewrite fset_shape; apply HR|]. intros y b0 Hb0. rewrite fget_fset.
  destruct (decide (y = x)) as [->|]; [|by apply HR]. rewrite Ha. eexists. split; [done|].
  assert (b0 = a0) as -> by congruence. destruct (rel_get F x a HR Ha) as (a1 & Ha1 & -> & _).
  assert (a1 = a0) as -> by congruence. split; [done|]. cbn. auto.
Qed.

Lemma find_rel n F o : rel F -> stored0 o -> odd o < n -> find_valid n F o = Some (NR o).
Proof.
  intros HR. revert o. induction n as [|n IH]; intros o Hs Hn; [lia|]. cbn. destruct o as [y|]; [|by rewrite NR_none].
  destruct (Hs y eq_refl) as [b0 Hb0]. destruct (rl_reg _ HR y b0 Hb0) as (b & Hb & E & S1 & S2 & S3).
  rewrite Hb, (NR_some y b0 Hb0). assert (g_flag b = g_flag b0) as -> by (by rewrite E).
  destruct (g_flag b0 =? 2); [done|]. rewrite IH; [congruence|done|]. cbn in Hn. lia.
Qed.

Lemma relink_ok n F real p : rel F -> stored0 p -> odd p < n -> NR p = real ->
  exists F', relink n F real p = Some F' /\ rel F' /\ forall z, z ∈ l -> fget F' z = fget F z.
Proof.
  revert F p. induction n as [|n IH]; intros F p HR Hs Hn E; [lia|]. cbn. destruct p as [y|]; [|eauto].
  destruct (decide (Some y = real)) as [|Hne]; [eauto|].
  destruct (Hs y eq_refl) as [b0 Hb0]. destruct (rl_reg _ HR y b0 Hb0) as (b & Hb & Eb & S1 & S2 & S3). rewrite Hb.
  pose proof E as E'. rewrite (NR_some y b0 Hb0) in E. destruct (Nat.eqb_spec (g_flag b0) 2) as [|Hf]; [done|].
  destruct (IH (fset F y (set_par b real)) (g_par b)) as (F' & HF & HR' & Hz).
  - eapply rel_set; eauto.
    + intros z ->. destruct (NR_valid (Some y) z Hs E') as [Hz _]. apply Hlv in Hz as (c & -> & _). eauto.
    + destruct real as [z|]; cbn; [|lia]. pose proof (par_odd y b0 Hb0).
      destruct (NR_valid (g_par b0) z) as [_ ?]; auto; [by eapply par_stored0|]. lia.
    + destruct real as [z|]; [|by rewrite NR_none]. destruct (NR_valid (Some y) z Hs E') as [Hz _].
      apply Hlv in Hz as (c & Hc & Hcf). rewrite (NR_some z c Hc), (proj2 (Nat.eqb_eq _ _) Hcf). done.
  - done.
  - cbn in Hn. lia.
  - congruence.
  - exists F'. split; auto. split; auto. intros z Hz'. rewrite Hz by done. rewrite fget_fset.
    destruct (decide (z = y)) as [->|]; [|done]. exfalso. apply Hlv in Hz' as (c & Hc & Hcf). congruence.
Qed.

(* ---------- numbers of the reported regions ---------- *)
Definition ix (x : rref) : option nat := fst <$> list_find (eq x) l.
Lemma ix_some x i : ix x = Some i <-> l !! i = Some x.
Proof.
  unfold ix. split.
  - intros (p & Hp & E)%fmap_Some. destruct p as [j y]. apply list_find_Some in Hp as (Hp & -> & _). cbn in E. by subst.
  - intros Hi. assert (list_find (eq x) l = Some (i, x)) as ->; [|done]. apply list_find_Some. split; auto. split; auto.
    intros j y Hj Hlt ->. assert (j = i) by (eapply NoDup_lookup; eauto). lia.
Qed.
Lemma ix_elem x : x ∈ l -> exists i, ix x = Some i /\ l !! i = Some x /\ i < length l.
Proof. intros (i & Hi)%elem_of_list_lookup. exists i. split; [by apply ix_some|]. split; auto. by eapply lookup_lt_Some. Qed.
Definition vp (i : nat) : option nat :=
  match l !! i with Some x => match NP x with Some y => ix y | None => None end | None => None end.
Lemma NP_in x y : is_Some (fget F0 x) -> NP x = Some y -> y ∈ l /\ dd y < dd x.
Proof.
  intros [a Ha] E. rewrite (NP_eq x a Ha) in E. apply NR_valid in E as [? ?]; [|by eapply par_stored0].
  split; auto. pose proof (par_odd x a Ha). lia.
Qed.
Lemma l_stored i x : l !! i = Some x -> exists a, fget F0 x = Some a /\ g_flag a = 2.
Proof. intros H. apply Hlv. by eapply elem_of_list_lookup_2. Qed.
Lemma vp_some i x : l !! i = Some x -> forall j, vp i = Some j <-> exists y, NP x = Some y /\ l !! j = Some y.
Proof.
  intros Hx j. unfold vp. rewrite Hx. destruct (NP x) as [y|] eqn:E.
  - rewrite ix_some. split; [eauto|]. by intros (y' & [= ->] & ?).
  - split; [done|]. by intros (y' & [=] & _).
Qed.
Lemma vp_NP i x y : l !! i = Some x -> NP x = Some y -> exists j, vp i = Some j /\ l !! j = Some y.
Proof.
  intros Hx E. destruct (l_stored i x Hx) as (a & Ha & _). destruct (NP_in x y) as [Hy _]; [eauto|done|].
  destruct (ix_elem y Hy) as (j & Hj & Hlj & _). exists j. split; [|done]. apply (vp_some i x Hx). eauto.
Qed.

Context (Hord : forall i j, vp i = Some j -> i < j).
Notation n := (length l).
Lemma Hvp i j : vp i = Some j -> i < j /\ j < n.
Proof.
  intros E. split; [by apply Hord|]. unfold vp in E. destruct (l !! i) as [x|] eqn:Hx; [|done].
  destruct (NP x) as [y|]; [|done]. apply ix_some in E. by eapply lookup_lt_Some.
Qed.

Definition sz (i : nat) : nat :=
  match l !! i with Some x => match fget F0 x with Some a => g_size a | None => 0 end | None => 0 end.
Definition gr (i : nat) : nat :=
  match l !! i with Some x => match fget F0 x with Some a => g_gray a | None => 0 end | None => 0 end.
Definition ksum (c : list nat) : nat := sum_list (map sz c).
Definition shr (thr : Z) (i : nat) : bool := (length (chl vp i) =? 0) || (Z.of_nat (sz i) <=? thr)%Z.
Definition cost (thr : Z) (i : nat) : nat :=
  if shr thr i then 4 + sz i else 4 + sz i - ksum (chl vp i) + (2 + length (chl vp i)) / 2.

(* ---------- the first loop ---------- *)
Lemma in_heap_rel F x : length <$> F = length <$> F0 -> in_heap F x = true <-> is_Some (fget F0 x).
Proof.
  intros Hs. unfold in_heap, fget. destruct x as [k i]; cbn [fst snd].
  assert ((length <$> F) !! k = (length <$> F0) !! k) as H1 by (by rewrite Hs). rewrite !list_lookup_fmap in H1.
  destruct (F !! k) as [r|], (F0 !! k) as [r0|]; cbn in H1; try done.
  - injection H1 as ->. rewrite Nat.ltb_lt. symmetry. apply lookup_lt_is_Some.
  - split; [done|]. by intros [? ?].
Qed.
Lemma h_put_ok s x v : length <$> e_F s = length <$> F0 -> is_Some (fget F0 x) ->
  h_put s x v = Some (ESt (e_F s) (<[x := Some v]> (e_heap s)) (e_kids s) (e_kpix s) (e_asg s)).
Proof. intros Hs Hx. unfold h_put. by rewrite (proj2 (in_heap_rel _ x Hs) Hx). Qed.
Lemma h_get_ok s x : length <$> e_F s = length <$> F0 -> is_Some (fget F0 x) -> h_get s x = e_heap s x.
Proof. intros Hs Hx. unfold h_get. by rewrite (proj2 (in_heap_rel _ x Hs) Hx). Qed.

Lemma loop_ind {X A} (f : X -> nat -> A -> option X) (I : nat -> X -> Prop) (la : list A) (s : X) :
  I 0 s -> (forall i x s, la !! i = Some x -> I i s -> exists s', f s i x = Some s' /\ I (S i) s') ->
  exists s', loop f 0 la s = Some s' /\ I (length la) s'.
Proof.
  intros H0 HS. assert (forall k t s, drop k la = t -> k <= length la -> I k s -> exists s', loop f k t s = Some s' /\ I (length la) s') as HG.
  { intros k t. revert k. induction t as [|x t IH]; intros k s1 Hd Hk HI.
    - cbn. exists s1. split; auto. assert (length (drop k la) = 0) as H by (by rewrite Hd). rewrite drop_length in H.
      assert (k = length la) as -> by lia. done.
    - assert (la !! k = Some x) as Hx. { rewrite <-(Nat.add_0_r k), <-lookup_drop, Hd. done. }
      destruct (HS k x s1 Hx HI) as (s2 & E & HI2). cbn. rewrite E. apply IH; auto.
      + rewrite <-(drop_drop la k 1 : drop 1 (drop k la) = _) || (replace (S k) with (k + 1) by lia; rewrite <-drop_drop, Hd; done).
      + apply lookup_lt_Some in Hx. lia. }
  eapply (HG 0 la); auto; lia.
Qed.

Record after1 (gm : N) (i : nat) (t : est * list mrec) : Prop := {
  a1_F : e_F (fst t) = F0;
  a1_heap : forall j x, l !! j = Some x -> j < i -> e_heap (fst t) x = Some (Z.of_nat j);
  a1_kids : forall x, x ∈ l -> e_kids (fst t) x = 0 /\ e_kpix (fst t) x = 0;
  a1_asg : forall x, e_asg (fst t) x = false;
  a1_len : length (snd t) = i;
  a1_ms : forall j, j < i -> snd t !! j = Some (MRec (N.lxor (N.of_nat (gr j)) gm) false (sz j) 0 rect0)
}.
Lemma first_ok gm heap0 : exists t, loop (rec_start gm) 0 l (ESt F0 heap0 (fun _ => 0) (fun _ => 0) (fun _ => false), []) = Some t /\
  after1 gm n t.
Proof.
  apply (loop_ind (rec_start gm) (after1 gm)).
  { constructor; cbn; auto; try lia. }
  intros i x [s ms] Hx [A1 A2 A3 A4 A5 A6]. cbn [fst snd] in *. unfold rec_start. rewrite A1.
  destruct (l_stored i x Hx) as (a & Ha & Hf). rewrite Ha, (Hid x a Ha). rewrite h_put_ok by (try rewrite A1; eauto).
  eexists. split; [done|]. constructor; cbn [fst snd e_F e_heap e_kids e_kpix e_asg]; auto.
  - intros j y Hy Hj. destruct (decide (y = x)) as [->|Hne].
    + rewrite fn_lookup_insert. assert (j = i) as -> by (eapply NoDup_lookup; eauto). done.
    + rewrite fn_lookup_insert_ne by done. apply A2; auto. assert (j <> i) by (intros ->; congruence). lia.
  - intros y Hy. destruct (decide (y = x)) as [->|Hne]; [by rewrite !fn_lookup_insert|].
    rewrite !fn_lookup_insert_ne by done. auto.
  - rewrite app_length. cbn. lia.
  - intros j Hj. destruct (decide (j = i)) as [->|Hne].
    + rewrite lookup_app_r by lia. rewrite A5, Nat.sub_diag. cbn. unfold gr, sz. by rewrite Hx, Ha.
    + rewrite lookup_app_l by lia. apply A6. lia.
Qed.

(* ---------- the second loop ---------- *)
Record after2 (thr : Z) (gm : N) (i : nat) (t : est * list mrec * Z) : Prop := {
  a2_rel : rel (e_F (fst (fst t)));
  a2_par : forall j x, l !! j = Some x -> j < i -> exists a, fget (e_F (fst (fst t))) x = Some a /\ g_par a = NP x;
  a2_heap : forall j x, l !! j = Some x -> e_heap (fst (fst t)) x = Some (Z.of_nat j);
  a2_kids : forall j x, l !! j = Some x -> e_kids (fst (fst t)) x = length (procs vp i j) /\ e_kpix (fst (fst t)) x = ksum (procs vp i j);
  a2_asg : forall x, e_asg (fst (fst t)) x = false;
  a2_len : length (snd (fst t)) = n;
  a2_ms : forall j, j < n -> snd (fst t) !! j = Some (MRec (N.lxor (N.of_nat (gr j)) gm) ((j <? i) && shr thr j) (sz j) 0 rect0);
  a2_sum : snd t = Z.of_nat (sumto (cost thr) i)
}.
Context (Hk : forall j, j < n -> ksum (chl vp j) <= sz j).
Lemma second_ok thr gm t1 : after1 gm n t1 -> (Z.of_nat (sumto (cost thr) n) < 2 ^ 31)%Z ->
  exists t, loop (classify fuel thr) 0 l (fst t1, snd t1, 0%Z) = Some t /\ after2 thr gm n t.
Proof.
  intros [A1 A2 A3 A4 A5 A6] Hsum. apply (loop_ind (classify fuel thr) (after2 thr gm)).
  { constructor; cbn [fst snd]; auto.
    - rewrite A1. apply rel_refl.
    - intros; lia.
    - intros j x Hx. apply A2; auto. by eapply lookup_lt_Some.
    - intros j x Hx. apply A3. by eapply elem_of_list_lookup_2. }
  intros i x [[s ms] tot] Hx [B1 B2 B3 B4 B5 B6 B7 B8]. cbn [fst snd] in *. unfold classify.
  assert (i < n) as Hi by (by eapply lookup_lt_Some).
  destruct (l_stored i x Hx) as (a0 & Ha0 & Hf0). destruct (rl_reg _ B1 x a0 Ha0) as (a & Ha & Ea & S1 & S2 & S3).
  rewrite Ha, (B7 i Hi). cbn [ms_size]. destruct (B4 i x Hx) as [-> ->].
  fold (chl vp i). assert (((length (chl vp i) =? 0) || (Z.of_nat (sz i) <=? thr)%Z) = shr thr i) as -> by done.
  assert (add_z tot (if shr thr i then 4 + Z.of_nat (sz i)
     else 4 + Z.of_nat (sz i) - Z.of_nat (ksum (chl vp i)) + Z.of_nat ((2 + length (chl vp i)) / 2)) =
     Some (Z.of_nat (sumto (cost thr) (S i)))) as ->.
  { pose proof (Hk i Hi). assert (sumto (cost thr) (S i) <= sumto (cost thr) n) by (apply sumto_le; lia).
    cbn [sumto] in *. unfold add_z. cbn zeta. rewrite B8.
    set (c := (if shr thr i then _ else _)%Z). assert (c = Z.of_nat (cost thr i)) as ->.
    { unfold c, cost. set (q := (2 + length (chl vp i)) / 2). destruct (shr thr i); lia. }
    destruct (Z.leb_spec (- 2 ^ 31) (Z.of_nat (sumto (cost thr) i) + Z.of_nat (cost thr i))); [|lia].
    destruct (Z.ltb_spec (Z.of_nat (sumto (cost thr) i) + Z.of_nat (cost thr i)) (2 ^ 31)); [|lia]. cbn [andb]. f_equal. lia. }
  pose proof (Hfuel x ltac:(eauto)) as Hfx.
  rewrite (find_rel fuel (e_F s) (g_par a) B1 S1) by lia. rewrite S3, <-(NP_eq x a0 Ha0).
  set (F1 := fset (e_F s) x (set_par a (NP x))).
  assert (rel F1) as HR1.
  { eapply rel_set; eauto.
    - intros y Hy. destruct (NP_in x y) as [Hyl _]; eauto. apply Hlv in Hyl as (c & -> & _). eauto.
    - destruct (NP x) as [y|] eqn:E; cbn; [|lia]. destruct (NP_in x y); eauto. 
    - destruct (NP x) as [y|] eqn:E; [|by rewrite NR_none, <-(NP_eq x a0 Ha0)]. destruct (NP_in x y) as [Hyl _]; eauto.
      rewrite <-(NP_eq x a0 Ha0), E. apply Hlv in Hyl as (c & Hc & Hcf). by rewrite (NR_some y c Hc), (proj2 (Nat.eqb_eq _ _) Hcf). }
  destruct (relink_ok fuel F1 (NP x) (g_par a) HR1 S1) as (F2 & HF2 & HR2 & Hz2); [lia|by rewrite S3, <-(NP_eq x a0 Ha0)|].
  assert (exists kids kpix, (match NP x with
     | Some y => (<[y := e_kids s y + 1]> (e_kids s), <[y := e_kpix s y + sz i]> (e_kpix s))
     | None => (e_kids s, e_kpix s) end) = (kids, kpix) /\
     forall j z, l !! j = Some z -> kids z = length (procs vp (S i) j) /\ kpix z = ksum (procs vp (S i) j)) as (kids & kpix & -> & HK).
  { assert (forall j, ksum (procs vp (S i) j) = ksum (procs vp i j) + (if decide (vp i = Some j) then sz i else 0)) as HKS.
    { intros j. rewrite procs_S. unfold ksum. rewrite map_app, sum_app. destruct (decide (vp i = Some j)); cbn; unfold id; lia. }
    destruct (NP x) as [y|] eqn:E.
    - eexists _, _. split; [done|]. intros j z Hj. destruct (B4 j z Hj) as [H1 H2].
      rewrite HKS, procs_S, app_length. destruct (decide (z = y)) as [->|Hne].
      + rewrite !fn_lookup_insert. assert (vp i = Some j) as Hv by (apply (vp_some i x Hx); eauto).
        rewrite !decide_True by done. cbn. rewrite H1, H2. done.
      + rewrite !fn_lookup_insert_ne by done. assert (vp i <> Some j) as Hv.
        { intros Hv. apply (vp_some i x Hx) in Hv as (y' & ? & ?). congruence. }
        rewrite !decide_False by done. cbn. rewrite H1, H2. lia.
    - eexists _, _. split; [done|]. intros j z Hj. destruct (B4 j z Hj) as [H1 H2].
      rewrite HKS, procs_S, app_length. assert (vp i <> Some j) as Hv.
      { intros Hv. apply (vp_some i x Hx) in Hv as (y' & ? & ?). congruence. }
      rewrite !decide_False by done. cbn. rewrite H1, H2. lia. }
  rewrite HF2. eexists. split; [done|]. constructor; cbn [fst snd e_F e_heap e_kids e_kpix e_asg]; auto.
  - intros j y Hy Hj. rewrite Hz2 by (by eapply elem_of_list_lookup_2). unfold F1. rewrite fget_fset.
    destruct (decide (y = x)) as [->|Hne]; [rewrite Ha; eauto|]. apply (B2 j); auto. assert (j <> i) by (intros ->; congruence). lia.
  - by rewrite insert_length.
  - intros j Hj. destruct (decide (j = i)) as [->|Hne].
    + rewrite list_lookup_insert by (by rewrite B6). cbn [ms_gray ms_pts ms_rect]. rewrite (proj2 (Nat.ltb_lt i (S i))) by lia. done.
    + rewrite list_lookup_insert_ne by done. rewrite (B7 j Hj). do 2 f_equal.
      destruct (Nat.ltb_spec j i), (Nat.ltb_spec j (S i)); try lia; done.
Qed.

(* ---------- the loop over all regions ---------- *)
Definition enc (o : option rref) : Z :=
  match o with Some y => match ix y with Some i => Z.of_nat i | None => (-1)%Z end | None => (-1)%Z end.
Record mid3 (F : forest) (s : est) : Prop := {
  m3_F : e_F s = F;
  m3_val : forall i x, l !! i = Some x -> e_heap s x = Some (Z.of_nat i);
  m3_asg : forall x, is_Some (fget F0 x) -> e_asg s x = true -> e_heap s x = Some (enc (NR (Some x)))
}.
Lemma enc_valid i x : l !! i = Some x -> enc (NR (Some x)) = Z.of_nat i.
Proof.
  intros Hx. destruct (l_stored i x Hx) as (a & Ha & Hf). rewrite (NR_some x a Ha), (proj2 (Nat.eqb_eq _ _) Hf).
  cbn. by rewrite (proj2 (ix_some x i) Hx).
Qed.

Lemma done_ok n0 F s o : rel F -> mid3 F s -> stored0 o -> odd o < n0 ->
  exists r, find_done n0 F (e_asg s) o = Some r /\ NR r = NR o /\ stored0 r /\
    forall y, r = Some y -> e_heap s y = Some (enc (NR o)).
Proof.
  intros HR Hs. revert o. induction n0 as [|n0 IH]; intros o Ho Hn; [lia|]. cbn.
  destruct o as [y|]; [|exists None; split; auto; split; auto; split; auto; done].
  destruct (Ho y eq_refl) as [b0 Hb0]. destruct (rl_reg _ HR y b0 Hb0) as (b & Hb & E & S1 & S2 & S3). rewrite Hb.
  assert (g_flag b = g_flag b0) as -> by (by rewrite E).
  destruct (Nat.eqb_spec (g_flag b0) 2) as [Hf|Hf]; cbn [orb].
  { exists (Some y). split; auto. split; auto. split; auto. intros ? [= <-].
    assert (y ∈ l) as (i & Hi)%elem_of_list_lookup by (apply Hlv; eauto).
    rewrite (m3_val _ _ Hs i y Hi), (enc_valid i y Hi). done. }
  destruct (e_asg s y) eqn:Ea.
  { exists (Some y). split; auto. split; auto. split; auto. intros ? [= <-]. apply (m3_asg _ _ Hs); eauto. }
  destruct (IH (g_par b)) as (r & Hr & E1 & E2 & E3); auto; [cbn in Hn; lia|].
  assert (NR (Some y) = NR (g_par b)) as Ey.
  { rewrite (NR_some y b0 Hb0), (proj2 (Nat.eqb_neq _ _) Hf). by rewrite <-S3. }
  exists r. rewrite Ey. auto.
Qed.

Lemma assign_ok n0 F s asg0 real p v : rel F -> mid3 F s -> stored0 p -> odd p < n0 ->
  (exists m, find_done m F asg0 p = Some real) -> v = enc (NR p) ->
  exists s', assign n0 s real p v = Some s' /\ mid3 F s' /\ e_kids s' = e_kids s /\ e_kpix s' = e_kpix s /\
    (forall x, e_asg s x = true -> e_asg s' x = true) /\
    (forall y, p = Some y -> p <> real -> e_asg s' y = true).
Proof.
  intros HR. revert s p. induction n0 as [|n0 IH]; intros s p Hs Hp Hn (m & Hm) Hv; [lia|]. cbn.
  destruct p as [y|]; [|exists s; split; auto; split; auto; split; auto; split; auto; split; auto; done].
  destruct (decide (Some y = real)) as [|Hne]; [exists s; split; auto; split; auto; split; auto; split; auto; split; auto; done|].
  destruct (Hp y eq_refl) as [b0 Hb0]. destruct (rl_reg _ HR y b0 Hb0) as (b & Hb & E & S1 & S2 & S3).
  rewrite (m3_F _ _ Hs), Hb.
  assert (g_patch b = g_patch b0) as -> by (by rewrite E). assert (g_idx b = g_idx b0) as -> by (by rewrite E). rewrite (Hid y b0 Hb0).
  rewrite h_put_ok by (rewrite ?(m3_F _ _ Hs); eauto; apply HR).
  destruct m as [|m]; [done|]. cbn in Hm. rewrite Hb in Hm. assert (g_flag b = g_flag b0) as Hfb by (by rewrite E).
  rewrite Hfb in Hm. destruct (Nat.eqb_spec (g_flag b0) 2) as [Hf|Hf]; cbn [orb] in Hm; [congruence|].
  destruct (asg0 y); [congruence|].
  assert (NR (Some y) = NR (g_par b)) as Ey by (rewrite (NR_some y b0 Hb0), (proj2 (Nat.eqb_neq _ _) Hf); by rewrite <-S3).
  match goal with |- context [assign n0 ?S _ _ _] => set (s1 := S) end.
  assert (mid3 F s1) as Hs1.
  { destruct Hs as [M1 M2 M3]. constructor; cbn [s1 e_F e_heap e_asg]; auto.
    - intros i x Hx. rewrite fn_lookup_insert_ne; [eauto|]. intros ->. destruct (l_stored i x Hx) as (c & Hc & Hcf). congruence.
    - intros x Hx Hax. destruct (decide (x = y)) as [->|Hxy]; [rewrite fn_lookup_insert; by rewrite Hv|].
      rewrite fn_lookup_insert_ne by done. rewrite fn_lookup_insert_ne in Hax by done. auto. }
  destruct (IH s1 (g_par b) Hs1 S1) as (s' & Hs' & H1 & H2 & H3 & H4 & H5); eauto.
  - cbn in Hn. lia.
  - by rewrite Hv, Ey.
  - exists s'. split; auto. split; auto. split; auto. split; auto.
    assert (forall x, e_asg s x = true \/ x = y -> e_asg s' x = true) as HA.
    { intros x Hx. apply H4. cbn [s1 e_asg]. destruct (decide (x = y)) as [->|Hxy]; [by rewrite fn_lookup_insert|].
      rewrite fn_lookup_insert_ne by done. by destruct Hx. }
    split; [auto|]. intros ? [= <-] _. auto.
Qed.

Lemma resolve_ok F s x : rel F -> mid3 F s -> is_Some (fget F0 x) ->
  exists s', resolve fuel s x = Some s' /\ mid3 F s' /\ e_kids s' = e_kids s /\ e_kpix s' = e_kpix s /\
    (forall y, e_asg s y = true -> e_asg s' y = true) /\ (x ∈ l \/ e_asg s' x = true).
Proof.
  intros HR Hs [a0 Ha0]. unfold resolve. destruct (rl_reg _ HR x a0 Ha0) as (a & Ha & E & S1 & S2 & S3).
  rewrite (m3_F _ _ Hs), Ha. assert (g_flag a = g_flag a0) as Hfa by (by rewrite E). rewrite Hfa.
  destruct (Nat.eqb_spec (g_flag a0) 2) as [Hf|Hf].
  { exists s. repeat (split; [done || auto|]). left. apply Hlv. eauto. }
  destruct (e_asg s x) eqn:Eax; [exists s; repeat (split; [done || auto|]); auto|].
  pose proof (Hfuel x ltac:(eauto)) as Hfx.
  destruct (done_ok fuel F s (g_par a) HR Hs S1) as (r & Hr & E1 & E2 & E3); [lia|]. rewrite Hr.
  assert (NR (Some x) = NR (g_par a)) as Ex by (rewrite (NR_some x a0 Ha0), (proj2 (Nat.eqb_neq _ _) Hf); by rewrite <-S3).
  assert ((match r with
     | None => Some (-1)%Z
     | Some y => match fget F y with None => None | Some b => h_get s (g_patch b, g_idx b) end end) = Some (enc (NR (Some x)))) as ->.
  { rewrite Ex. destruct r as [y|]; [|rewrite <-E1, NR_none; done].
    destruct (E2 y eq_refl) as [b0 Hb0]. destruct (rl_reg _ HR y b0 Hb0) as (b & Hb & Eb & _). rewrite Hb.
    rewrite Eb. cbn [g_patch g_idx set_par]. rewrite (Hid y b0 Hb0).
    rewrite h_get_ok; [by apply E3|rewrite (m3_F _ _ Hs); apply HR|eauto]. }
  destruct (assign_ok fuel F s (e_asg s) r (Some x) (enc (NR (Some x))) HR Hs) as (s' & H0 & H1 & H2 & H3 & H4 & H5).
  - intros ? [= <-]. eauto.
  - cbn. lia.
  - exists (S fuel). cbn. rewrite Ha, Hfa, (proj2 (Nat.eqb_neq _ _) Hf), Eax. done.
  - done.
  - exists s'. split; auto. split; auto. split; auto. split; auto. split; auto. right. apply H5; [done|].
    intros <-. (* the walk starts above x *)
    assert (S (dd x) <= odd (g_par a)); [|lia]. clear -HR Hr S1 S2 Hfx Hpar Hid.
    assert (forall m o, stored0 o -> find_done m F (e_asg s) o = Some (Some x) -> S (dd x) <= odd o) as HG; [|by eapply HG].
    induction m as [|m IH]; intros o Ho H; [done|]. cbn in H. destruct o as [y|]; [|done].
    destruct (Ho y eq_refl) as [b0 Hb0]. destruct (rl_reg _ HR y b0 Hb0) as (b & Hb & E & T1 & T2 & T3). rewrite Hb in H.
    destruct ((g_flag b =? 2) || e_asg s y); [by injection H as ->|]. apply IH in H; auto. cbn. lia.
Qed.

Lemma elem_all_refs F x : length <$> F = length <$> F0 -> x ∈ all_refs F <-> is_Some (fget F0 x).
Proof.
  intros Hs. rewrite <-(in_heap_rel F x Hs). unfold all_refs, refs_of, in_heap. rewrite elem_of_list_In, in_flat_map.
  destruct x as [k i]; cbn [fst snd]. split.
  - intros (k' & Hk' & Hin). destruct (F !! k') as [r|] eqn:E.
    + apply in_map_iff in Hin as (i' & [= -> ->] & Hin). rewrite E. apply in_seq in Hin. apply Nat.ltb_lt. lia.
    + done.
  - destruct (F !! k) as [r|] eqn:E; [|done]. intros Hi%Nat.ltb_lt. exists k. split.
    + apply in_seq. apply lookup_lt_Some in E. lia.
    + rewrite E. apply in_map_iff. exists i. split; auto. apply in_seq. lia.
Qed.

Lemma third_ok thr gm t2 : after2 thr gm n t2 -> exists s3,
  each (resolve fuel) (all_refs (e_F (fst (fst t2)))) (fst (fst t2)) = Some s3 /\ e_F s3 = e_F (fst (fst t2)) /\
  (forall x, is_Some (fget F0 x) -> h_get s3 x = Some (enc (NR (Some x)))) /\
  e_kids s3 = e_kids (fst (fst t2)) /\ e_kpix s3 = e_kpix (fst (fst t2)).
Proof.
  intros [B1 _ B3 _ B5 _ _ _]. set (s := fst (fst t2)) in *. set (F := e_F s) in *.
  assert (forall q s1, mid3 F s1 -> (forall x, x ∈ q -> is_Some (fget F0 x)) -> exists s3, each (resolve fuel) q s1 = Some s3 /\ mid3 F s3 /\
    e_kids s3 = e_kids s1 /\ e_kpix s3 = e_kpix s1 /\ (forall y, e_asg s1 y = true -> e_asg s3 y = true) /\
    forall x, x ∈ q -> x ∈ l \/ e_asg s3 x = true) as HG.
  { induction q as [|x q IH]; intros s1 H1 Hq.
    - exists s1. repeat (split; [done || auto|]). intros x Hx. by apply elem_of_nil in Hx.
    - destruct (resolve_ok F s1 x B1 H1) as (s2 & E & M2 & K1 & K2 & K3 & K4); [apply Hq; left|].
      destruct (IH s2 M2) as (s3 & E3 & M3 & L1 & L2 & L3 & L4); [intros y Hy; apply Hq; by right|].
      exists s3. cbn. rewrite E. split; auto. split; auto. split; [congruence|]. split; [congruence|]. split; [auto|].
      intros y [->|Hy]%elem_of_cons; [|auto]. destruct K4; auto. }
  destruct (HG (all_refs F) s) as (s3 & E & [M1 M2 M3] & K1 & K2 & _ & K4).
  - constructor; auto. intros x _ Hx. by rewrite B5 in Hx.
  - intros x Hx. apply (elem_all_refs F); [apply B1|done].
  - exists s3. split; auto. split; auto. split; [|auto]. intros x Hx. rewrite h_get_ok; [|rewrite M1; apply B1|done].
    destruct (K4 x) as [Hxl|Hxa]; [apply (elem_all_refs F); [apply B1|done]| |by apply M3].
    apply elem_of_list_lookup in Hxl as (i & Hi). by rewrite (M2 i x Hi), (enc_valid i x Hi).
Qed.
End link.
