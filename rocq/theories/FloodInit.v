(* Proofs about process_tree_patch (FloodModel): both branches leave the buffers
   in the state the flooding loop expects. *)
From stdpp Require Import sorting relations functions list.
From Coq Require Import NArith ZArith.
From Verif Require Import Spec FloodAbs FloodAbsInv FloodAbsProof Grid FloodModel WordBits FloodRefine.

Lemma for_n_inv {S} (I : nat -> S -> Prop) n body s :
  I 0 s -> (forall i s, i < n -> I i s -> exists s', body s = Some s' /\ I (Datatypes.S i) s') ->
  exists s', for_n n body s = Some s' /\ I n s'.
Proof.
  revert I s. induction n as [|n IH]; intros I s H0 Hs; simpl; [eauto|].
  destruct (Hs 0 s) as (s1 & -> & H1); [lia|auto|].
  destruct (IH (fun i => I (Datatypes.S i)) s1) as (s' & Hr & Hi); auto.
  { intros i s2 Hi H2. apply Hs; auto. lia. }
  eauto.
Qed.

Lemma store_ok {A} (l : list A) i v : i < length l -> store l i v = Some (<[i := v]> l).
Proof. intros H. unfold store. destruct (Nat.ltb_spec i (length l)); auto; lia. Qed.

(* the levels of a rectangle, as counted by the code *)
Definition lcount (val : nat -> nat) (l : list nat) (v : nat) : nat :=
  length (filter (fun p => val p = v) l).

Lemma lcount_app val l1 l2 v : lcount val (l1 ++ l2) v = lcount val l1 v + lcount val l2 v.
Proof. unfold lcount. by rewrite filter_app, app_length. Qed.

Lemma lcount_sum val l n : (forall p, p ∈ l -> val p < n) ->
  sum_list (map (lcount val l) (seq 0 n)) = length l.
Proof.
  induction l as [|p l IH]; intros Hv.
  - clear Hv. generalize 0. induction n as [|n IH]; intros a; simpl; auto.
  - assert (forall a m, sum_list (map (lcount val (p :: l)) (seq a m)) =
       sum_list (map (lcount val l) (seq a m)) + (if decide (a <= val p < a + m) then 1 else 0)) as Hs.
    { intros a m. revert a. induction m as [|m IHm]; intros a; simpl.
      - destruct (decide _); lia.
      - rewrite IHm. unfold lcount at 1 3. rewrite filter_cons.
        repeat destruct (decide _); simpl; lia. }
    rewrite Hs, IH by set_solver. rewrite decide_True; [simpl; lia|].
    specialize (Hv p ltac:(set_solver)). lia.
Qed.

(* ---------- boundary stack starts ---------- *)
Definition cap_of (lvl : list nat) (g : nat) : nat := default 0 (lvl !! g).
Definition base_of (lvl : list nat) (g : nat) : nat := sum_list (map (cap_of lvl) (seq 0 g)) + g.
Lemma base_of_S lvl g : base_of lvl (S g) = base_of lvl g + cap_of lvl g + 1.
Proof.
  unfold base_of. rewrite seq_S, map_app. simpl.
  assert (forall a b, sum_list (a ++ b) = sum_list a + sum_list b) as ->; [|simpl; lia].
  intros a b. induction a; simpl; lia.
Qed.
Lemma base_of_le lvl g g' : g <= g' -> base_of lvl g <= base_of lvl g'.
Proof. induction 1; auto. rewrite base_of_S. lia. Qed.
Lemma base_of_inj lvl g g' : base_of lvl g = base_of lvl g' -> g = g'.
Proof.
  intros He. destruct (lt_eq_lt_dec g g') as [[H|H]|H]; auto; exfalso.
  - pose proof (base_of_le lvl (S g) g' H). rewrite base_of_S in *. lia.
  - pose proof (base_of_le lvl (S g') g H). rewrite base_of_S in *. lia.
Qed.

Section init.
Context (ms : bool) (cols top left w h : nat) (pt : nat) (img : list N) (val : nat -> N).
Context (Hw : 0 < w) (Hh : 0 < h) (Hfit : left + w <= cols).
Notation gid := (gid cols top left).
Notation pid := (pid w).
Notation phi := (phi cols top left w).
Notation plen := (plen w h).
Notation border := (border w h).
Notation nodes := (rect_nodes cols top left w h).
Context (Himg : forall r c, r < h -> c < w -> img !! gid r c = Some (val (gid r c))).
Context (Hval : forall r c, r < h -> c < w -> (val (gid r c) < 256)%N).
Notation nval := (fun p => N.to_nat (val p)).
Notation bnd := (5 * 2 ^ 29)%N.

Definition inner (x : nat) : bool :=
  ((1 <=? x / (w + 2)) && (x / (w + 2) <=? h) && (1 <=? x mod (w + 2)) && (x mod (w + 2) <=? w)).
Definition want (x : nat) : N := if inner x then 0%N else bnd.

Lemma dm r c : c < w + 2 -> (r * (w + 2) + c) / (w + 2) = r /\ (r * (w + 2) + c) mod (w + 2) = c.
Proof.
  intros Hc. split.
  - rewrite Nat.div_add_l by lia. rewrite Nat.div_small by lia. lia.
  - rewrite Nat.add_comm, Nat.mod_add by lia. by rewrite Nat.mod_small.
Qed.
Lemma inner_at r c : c < w + 2 -> inner (r * (w + 2) + c) =
  ((1 <=? r) && (r <=? h) && (1 <=? c) && (c <=? w)).
Proof. intros Hc. unfold inner. by destruct (dm r c Hc) as [-> ->]. Qed.
Lemma want_pid r c : r < h -> c < w -> want (pid r c) = 0%N.
Proof.
  intros Hr Hc. unfold want, FloodRefine.pid. rewrite inner_at by lia.
  destruct (Nat.leb_spec 1 (r + 1)), (Nat.leb_spec (r + 1) h), (Nat.leb_spec 1 (c + 1)),
    (Nat.leb_spec (c + 1) w); try lia. done.
Qed.
Lemma want_border x : border x -> want x = bnd.
Proof.
  intros [Hx Hb]. unfold want. destruct (inner x) eqn:Hi; auto. exfalso. unfold inner in Hi.
  apply andb_prop in Hi as [Hi H4]. apply andb_prop in Hi as [Hi H3]. apply andb_prop in Hi as [H1 H2].
  apply Nat.leb_le in H1, H2, H3, H4.
  apply (Hb (x / (w + 2) - 1) (x mod (w + 2) - 1)); [lia|lia|].
  unfold FloodRefine.pid. pose proof (Nat.div_mod x (w + 2) ltac:(lia)) as Hd.
  replace (x / (w + 2) - 1 + 1) with (x / (w + 2)) by lia. lia.
Qed.

Record FI (pp ep ip : nat) (done : list nat) (s : fini) : Prop := {
  fi_pp : i_pp s = pp; fi_ep : i_ep s = ep; fi_ip : i_ip s = ip;
  fi_pl : length (i_pts s) = plen;
  fi_pw : forall x, x < pp -> i_pts s !! x = Some (want x);
  fi_el : length (i_ext s) = plen;
  fi_ew : forall p, p ∈ done -> i_ext s !! phi p = Some (val p) /\ phi p < ep;
  fi_ll : length (i_lvl s) = 257;
  fi_lw : forall v, v < 257 -> i_lvl s !! v = Some (lcount nval done v)
}.

Lemma fresh_word_ok pp ep ip done s : FI pp ep ip done s -> pp < plen -> want pp = bnd ->
  exists s', fresh_word bnd s = Some s' /\ FI (S pp) ep ip done s'.
Proof.
  intros [? ? ? Hpl Hpw ? ? ? ?] Hlt Hwant. unfold fresh_word, put_word. cbn [fst snd].
  rewrite store_ok by (rewrite Hpl; lia). eexists. split; [done|].
  constructor; cbn [i_pts i_pp i_ext i_ep i_lvl i_ip]; auto.
  - by rewrite insert_length.
  - intros x Hx. subst pp. destruct (decide (x = i_pp s)) as [->|].
    + rewrite list_lookup_insert by lia. by rewrite Hwant.
    + rewrite list_lookup_insert_ne by auto. apply Hpw. lia.
Qed.

Lemma fresh_pixel_ok r c done s : r < h -> c < w ->
  FI (pid r c) (pid r c) (gid r c) done s ->
  exists s', fresh_pixel img s = Some s' /\
    FI (pid r (S c)) (pid r (S c)) (gid r (S c)) (done ++ [gid r c]) s'.
Proof.
  intros Hr Hc [Hpp Hep Hip Hpl Hpw Hel Hew Hll Hlw]. unfold fresh_pixel.
  rewrite Hip, Himg by auto. pose proof (Hval r c Hr Hc) as Hv.
  rewrite Hlw by lia.
  assert (pid r c < plen) as Hlt. { unfold FloodRefine.pid, FloodRefine.plen. nia. }
  rewrite !store_ok by lia. eexists. split; [done|].
  assert (phi (gid r c) = pid r c) as Hphi by (by apply phi_gid).
  assert (pid r (S c) = S (pid r c)) as Hsucc. { unfold FloodRefine.pid. lia. }
  constructor; cbn [i_pts i_pp i_ext i_ep i_lvl i_ip]; rewrite ?insert_length; auto; try lia.
  - unfold Grid.gid. lia.
  - intros x Hx. destruct (decide (x = pid r c)) as [->|].
    + rewrite Hpp, list_lookup_insert by lia. by rewrite want_pid.
    + rewrite list_lookup_insert_ne by lia. apply Hpw. lia.
  - intros p Hp. rewrite elem_of_app, elem_of_list_singleton in Hp.
    destruct Hp as [Hp| ->].
    + destruct (Hew p Hp) as [He Hlt']. rewrite list_lookup_insert_ne by lia. split; auto. lia.
    + rewrite Hphi, Hep, list_lookup_insert by lia. split; auto. lia.
  - intros v Hv'. rewrite lcount_app. unfold lcount at 3. rewrite filter_cons, filter_nil.
    destruct (decide (nval (gid r c) = v)) as [<-|Hne].
    + rewrite list_lookup_insert by lia. f_equal. simpl. lia.
    + rewrite list_lookup_insert_ne by auto. rewrite Hlw by auto. f_equal. simpl. lia.
Qed.

Definition row_nodes (r : nat) : list nat := map (gid r) (seq 0 w).
Definition rows_nodes (n : nat) : list nat := flat_map row_nodes (seq 0 n).
Lemma rows_S n : rows_nodes (S n) = rows_nodes n ++ row_nodes n.
Proof. unfold rows_nodes. by rewrite seq_S, flat_map_app, <-app_assoc || (rewrite seq_S, flat_map_app; simpl; by rewrite app_nil_r). Qed.

Lemma fresh_row_ok r s : r < h ->
  FI ((r + 1) * (w + 2)) ((r + 1) * (w + 2) + 1) (gid r 0) (rows_nodes r) s ->
  exists s', fresh_row (cfgd ms w h 0 pt) img cols s = Some s' /\
    FI ((S r + 1) * (w + 2)) ((S r + 1) * (w + 2) + 1) (gid (S r) 0) (rows_nodes (S r)) s'.
Proof.
  intros Hr HI. unfold fresh_row.
  rewrite bnd4.
  destruct (fresh_word_ok _ _ _ _ s HI) as (s1 & -> & H1).
  { unfold FloodRefine.plen. nia. }
  { apply want_border. rewrite <-(Nat.add_0_r ((r + 1) * (w + 2))). apply border_col; lia. }
  replace (S ((r + 1) * (w + 2))) with (pid r 0) in H1 by (unfold FloodRefine.pid; lia).
  replace ((r + 1) * (w + 2) + 1) with (pid r 0) in H1 by (unfold FloodRefine.pid; lia).
  cbn [k_w cfgd].
  destruct (for_n_inv (fun c => FI (pid r c) (pid r c) (gid r c) (rows_nodes r ++ map (gid r) (seq 0 c)))
             w (fresh_pixel img) s1) as (s2 & -> & H2).
  { by rewrite app_nil_r. }
  { intros c s' Hc HI'. rewrite seq_S, map_app, app_assoc. by apply fresh_pixel_ok. }
  change (map (gid r) (seq 0 w)) with (row_nodes r) in H2. rewrite <-rows_S in H2.
  destruct (fresh_word_ok _ _ _ _ s2 H2) as (s3 & -> & H3).
  { unfold FloodRefine.pid, FloodRefine.plen. nia. }
  { apply want_border. unfold FloodRefine.pid. apply border_col; lia. }
  eexists. split; [done|]. destruct H3 as [? ? ? ? ? ? Hew ? ?].
  constructor; cbn [i_pts i_pp i_ext i_ep i_lvl i_ip]; auto.
  - rewrite fi_pp0. unfold FloodRefine.pid. lia.
  - rewrite fi_ep0. unfold FloodRefine.pid. lia.
  - rewrite fi_ip0. unfold Grid.gid. lia.
  - intros x Hx. apply fi_pw0. unfold FloodRefine.pid. lia.
  - intros p Hp. destruct (Hew p Hp). split; auto. unfold FloodRefine.pid in *. lia.
Qed.

Lemma heap_init_ok b : length (b_lvl b) = 257 -> length (b_hs b) = 257 -> b_hs b !! 0 = Some 0 ->
  length (b_heap b) = base_of (b_lvl b) 256 + 1 ->
  exists b', heap_init b = Some b' /\ b_pts b' = b_pts b /\ b_ext b' = b_ext b /\ b_lvl b' = b_lvl b /\
    heapR cols top left w (base_of (b_lvl b)) (b_heap b') (b_hs b') (fun _ => []).
Proof.
  intros Hll Hhl H0 Hhp. unfold heap_init. rewrite H0, store_ok by lia.
  destruct (for_n_inv (fun i (s : list (option nat) * list nat * nat) =>
      let '(heap, hs, j) := s in j = S i /\ length hs = 257 /\ length heap = base_of (b_lvl b) 256 + 1 /\
      forall g, g <= i -> hs !! g = Some (base_of (b_lvl b) g) /\ heap !! base_of (b_lvl b) g = Some None)
    256 (heap_init_iter (b_lvl b)) (<[0:=None]> (b_heap b), b_hs b, 1)) as ([[heap hs] j] & -> & Hj & Hl1 & Hl2 & Hg).
  - split; auto. split; auto. rewrite insert_length. split; auto.
    intros g Hg. assert (g = 0) as -> by lia. split; auto. apply list_lookup_insert. lia.
  - intros i [[heap hs] j] Hi (-> & Hl1 & Hl2 & Hg). unfold heap_init_iter.
    replace (S i - 1) with i by lia. destruct (Hg i ltac:(lia)) as [-> _].
    destruct (lookup_lt_is_Some_2 (b_lvl b) i) as [n Hn]; [lia|]. rewrite Hn.
    assert (base_of (b_lvl b) i + n + 1 = base_of (b_lvl b) (S i)) as He.
    { rewrite base_of_S. unfold cap_of. by rewrite Hn. }
    rewrite He. rewrite (store_ok hs) by lia.
    pose proof (base_of_le (b_lvl b) (S i) 256 ltac:(lia)).
    rewrite (store_ok heap) by lia. eexists. split; [done|]. cbv beta iota zeta. rewrite !insert_length.
    split; auto. split; auto. split; auto. intros g Hg'.
    destruct (decide (g = S i)) as [->|].
    + rewrite !list_lookup_insert by lia. auto.
    + rewrite !list_lookup_insert_ne; [apply Hg; lia| |auto].
      intros He'. apply base_of_inj in He'. lia.
  - eexists. split; [done|]. cbn [b_pts b_ext b_lvl b_heap b_hs]. split; auto. split; auto. split; auto.
    split; auto. split; auto. intros g Hg'. destruct (Hg g Hg') as [-> ->].
    simpl length. rewrite Nat.add_0_r. split; auto. split; auto. intros i x Hx. done.
Qed.

(* ---------- the first pass ---------- *)

(* the state between passes: intact border, image copied, counts of the levels,
   boundary stack start restored *)
Record buf_between (b : fbuf) : Prop := {
  bb_pl : length (b_pts b) = plen;
  bb_bd : forall x, border x -> b_pts b !! x = Some bnd;
  bb_ext : forall r c, r < h -> c < w -> b_ext b !! pid r c = Some (val (gid r c));
  bb_ll : length (b_lvl b) = 257;
  bb_lv : forall v, v < 257 -> b_lvl b !! v = Some (lcount nval nodes v);
  bb_hl : length (b_hs b) = 257;
  bb_h0 : b_hs b !! 0 = Some 0;
  bb_hp : length (b_heap b) = w * h + 257
}.

Record buf_alloc (b : fbuf) : Prop := {
  ba_pl : length (b_pts b) = plen;
  ba_el : length (b_ext b) = plen;
  ba_hl : length (b_hs b) = 257;
  ba_h0 : b_hs b !! 0 = Some 0;
  ba_hp : length (b_heap b) = w * h + 257
}.

Lemma rows_all : rows_nodes h = nodes.
Proof. done. Qed.

Lemma fresh_branch_ok b : buf_alloc b ->
  exists b', fresh_branch (cfgd ms w h 0 pt) img cols (gid 0 0) b = Some b' /\ buf_between b' /\
    (forall x, x < plen -> b_pts b' !! x = Some (want x)).
Proof.
  intros [Hpl Hel Hhl Hh0 Hhp]. unfold fresh_branch.
  rewrite bnd4.
  unfold k_w2. cbn [k_w k_h cfgd].
  destruct (for_n_inv (fun i => FI i (w + 2 + 1) (gid 0 0) []) (w + 2) (fresh_word bnd)
    (FIni (b_pts b) 0 (b_ext b) (w + 2 + 1) (replicate 257 0) (gid 0 0))) as (s1 & -> & H1).
  { constructor; auto; cbn [i_pts i_pp i_ext i_ep i_lvl i_ip].
    - intros; lia.
    - intros p Hp. by apply elem_of_nil in Hp.
    - intros v Hv. by rewrite lookup_replicate_2. }
  { intros i s Hi HI. apply fresh_word_ok; auto.
    - unfold FloodRefine.plen. nia.
    - apply want_border. apply (border_row w h 0 i); auto. }
  destruct (for_n_inv (fun r => FI ((r + 1) * (w + 2)) ((r + 1) * (w + 2) + 1) (gid r 0) (rows_nodes r))
    h (fresh_row (cfgd ms w h 0 pt) img cols) s1) as (s2 & -> & H2).
  { by rewrite Nat.mul_1_l. }
  { intros r s Hr HI. by apply fresh_row_ok. }
  destruct (for_n_inv (fun i => FI ((h + 1) * (w + 2) + i) ((h + 1) * (w + 2) + 1) (gid h 0) (rows_nodes h))
    (w + 2) (fresh_word bnd) s2) as (s3 & -> & H3).
  { by rewrite Nat.add_0_r. }
  { intros i s Hi HI. rewrite Nat.add_succ_r. apply fresh_word_ok; auto.
    - unfold FloodRefine.plen. nia.
    - apply want_border. apply (border_row w h (h + 1) i); auto. }
  eexists. split; [done|]. destruct H3 as [? ? ? Hp Hpw ? Hew ? Hlw].
  assert (forall x, x < plen -> i_pts s3 !! x = Some (want x)) as Hall.
  { intros x Hx. apply Hpw. unfold FloodRefine.plen in Hx. lia. }
  split; auto. constructor; auto; cbn [b_pts b_ext b_lvl b_heap b_hs].
  - intros x Hx. rewrite Hall by apply Hx. f_equal. by apply want_border.
  - intros r c Hr Hc. rewrite <-(phi_gid cols top left w Hfit r c) by auto.
    apply Hew. rewrite rows_all. apply elem_rect. eauto 6.
Qed.

Lemma map_seq_ext {A} (f g : nat -> A) a n : (forall v, a <= v < a + n -> f v = g v) ->
  map f (seq a n) = map g (seq a n).
Proof.
  clear. revert a. induction n as [|n IH]; intros a H; simpl; auto.
  rewrite H by lia. f_equal. apply IH. intros; apply H; lia.
Qed.

Lemma base_total (val' : nat -> nat) lvl : (forall p, p ∈ nodes -> val' p < 256) ->
  (forall v, v < 256 -> lvl !! v = Some (lcount val' nodes v)) ->
  base_of lvl 256 + 1 = w * h + 257.
Proof.
  intros Hv Hl. unfold base_of.
  rewrite (map_seq_ext _ (lcount val' nodes)).
  - rewrite lcount_sum by auto. rewrite length_rect. lia.
  - intros v Hv'. unfold cap_of. by rewrite Hl by lia.
Qed.

Lemma nodes_val p : p ∈ nodes -> nval p < 256.
Proof. intros Hp. apply elem_rect in Hp as (r & c & Hr & Hc & ->). pose proof (Hval r c Hr Hc). lia. Qed.

Lemma process_fresh_ok b : buf_alloc b ->
  exists b', process_tree_patch (cfgd ms w h 0 pt) true img cols (gid 0 0) b = Some b' /\
    buf_between b' /\
    (forall r c, r < h -> c < w -> b_pts b' !! pid r c = Some 0%N) /\
    heapR cols top left w (base_of (b_lvl b')) (b_heap b') (b_hs b') (fun _ => []).
Proof.
  intros Hb. unfold process_tree_patch.
  destruct (fresh_branch_ok b Hb) as (b1 & -> & [] & Hw1).
  destruct (heap_init_ok b1) as (b2 & -> & E1 & E2 & E3 & HR); auto.
  { rewrite (base_total nval); auto. apply nodes_val. }
  exists b2. split; auto. rewrite E3. split; [|split; auto].
  - destruct HR as (K1 & K2 & K3). constructor; rewrite ?E1, ?E2, ?E3; auto.
    + destruct (K3 0 ltac:(lia)) as [-> _]. done.
    + rewrite K2. apply (base_total nval). apply nodes_val. intros; apply bb_lv0; lia.
  - intros r c Hr Hc. rewrite E1, Hw1.
    + by rewrite want_pid.
    + unfold FloodRefine.pid, FloodRefine.plen. nia.
Qed.

(* ---------- the second pass ---------- *)
Lemma reuse_row_ok r l : r < h -> length l = plen ->
  exists l', reuse_row (cfgd ms w h 255 pt) (l, pid r 0) = Some (l', pid (S r) 0) /\ length l' = plen /\ (forall c, c < w -> l' !! pid r c = Some 0%N) /\ (forall x, (forall c, c < w -> x <> pid r c) -> l' !! x = l !! x).
Proof.
  intros Hr Hl. unfold reuse_row. cbn [k_w cfgd].
  destruct (for_n_inv (fun c (s : list N * nat) => snd s = pid r c /\ length (fst s) = plen /\ (forall c', c' < c -> fst s !! pid r c' = Some 0%N) /\ (forall x, (forall c', c' < w -> x <> pid r c') -> fst s !! x = l !! x)) w (put_word 0) (l, pid r 0))
    as ([l' p] & -> & Hp & Hl' & Hz & Hk).
  - cbn [fst snd]. split; auto. split; auto. split; auto. intros; lia.
  - intros c [l1 p1] Hc (Hp & Hl1 & Hz & Hk). cbn [fst snd] in *. unfold put_word. cbn [fst snd].
    assert (pid r c < plen). { unfold FloodRefine.pid, FloodRefine.plen. nia. }
    rewrite store_ok by lia. eexists. split; [done|]. cbn [fst snd]. subst p1. rewrite insert_length.
    split. { unfold FloodRefine.pid. lia. } split; auto. split.
    + intros c' Hc'. destruct (decide (c' = c)) as [->|].
      * rewrite list_lookup_insert by lia. done.
      * rewrite list_lookup_insert_ne; [apply Hz; lia|]. unfold FloodRefine.pid. lia.
    + intros x Hx. rewrite list_lookup_insert_ne by (apply not_eq_sym; auto). auto.
  - cbn [fst snd] in *. exists l'. split; auto. f_equal. f_equal. rewrite Hp. unfold FloodRefine.pid. lia.
Qed.

Lemma reuse_rows_ok l : length l = plen -> exists l' p,
  for_n h (reuse_row (cfgd ms w h 255 pt)) (l, pid 0 0) = Some (l', p) /\ length l' = plen /\ (forall r c, r < h -> c < w -> l' !! pid r c = Some 0%N) /\ (forall x, border x -> l' !! x = l !! x).
Proof.
  intros Hl.
  destruct (for_n_inv (fun r (s : list N * nat) => snd s = pid r 0 /\ length (fst s) = plen /\ (forall r' c, r' < r -> c < w -> fst s !! pid r' c = Some 0%N) /\ (forall x, border x -> fst s !! x = l !! x)) h (reuse_row (cfgd ms w h 255 pt)) (l, pid 0 0))
    as ([l' p] & -> & Hp & Hl' & Hz & Hk).
  - cbn [fst snd]. split; auto. split; auto. split; auto. intros; lia.
  - intros r [l1 p1] Hr (Hp & Hl1 & Hz & Hk). cbn [fst snd] in *. subst p1.
    destruct (reuse_row_ok r l1 Hr Hl1) as (l2 & -> & Hl2 & Hz2 & Hk2).
    eexists. split; [done|]. cbn [fst snd]. split; auto. split; auto. split.
    + intros r' c Hr' Hc. destruct (decide (r' = r)) as [->|]; auto.
      rewrite Hk2. { apply Hz; auto; lia. }
      intros c' Hc' He. apply pid_inj in He as [? ?]; auto.
    + intros x Hx. rewrite Hk2; auto. intros c Hc. by apply Hx.
  - cbn [fst snd] in *. exists l', p. auto.
Qed.

Lemma swap_ok l : length l = 257 -> exists l' p, for_n 128 swap_level (l, 0) = Some (l', p) /\ length l' = 257 /\ (forall v, v < 256 -> l' !! v = l !! (255 - v)) /\ l' !! 256 = l !! 256.
Proof.
  clear. intros Hl.
  destruct (for_n_inv (fun i (s : list nat * nat) => snd s = i /\ length (fst s) = 257 /\ (forall v, v < 256 -> fst s !! v = if decide (v < i \/ 255 - i < v) then l !! (255 - v) else l !! v) /\ fst s !! 256 = l !! 256)
    128 swap_level (l, 0)) as ([l' p] & -> & Hp & Hl' & Hv & H6).
  - cbn [fst snd]. split; auto. split; auto. split; auto. intros v Hv. by rewrite decide_False by lia.
  - intros i [l1 p1] Hi (Hp & Hl1 & Hv & H6). cbn [fst snd] in *. subst p1. unfold swap_level.
    destruct (lookup_lt_is_Some_2 l1 i) as [x Hx]; [lia|].
    destruct (lookup_lt_is_Some_2 l1 (255 - i)) as [y Hy]; [lia|]. rewrite Hx, Hy.
    eexists. split; [done|]. cbn [fst snd]. rewrite !insert_length. split; auto. split; auto.
    pose proof (Hv i ltac:(lia)) as Hvi. rewrite decide_False in Hvi by lia.
    pose proof (Hv (255 - i) ltac:(lia)) as Hvj. rewrite decide_False in Hvj by lia.
    split.
    + intros v Hv'. destruct (decide (v = 255 - i)) as [->|].
      * rewrite list_lookup_insert by (rewrite insert_length; lia).
        rewrite decide_True by lia. replace (255 - (255 - i)) with i by lia. congruence.
      * rewrite list_lookup_insert_ne by auto. destruct (decide (v = i)) as [->|].
        -- rewrite list_lookup_insert by lia. rewrite decide_True by lia. congruence.
        -- rewrite list_lookup_insert_ne by auto. rewrite Hv by auto.
           destruct (decide (v < i \/ 255 - i < v)), (decide (v < S i \/ 255 - S i < v)); auto; lia.
    + rewrite !list_lookup_insert_ne by lia. auto.
  - cbn [fst snd] in *. exists l', p. split; auto. split; auto. split; auto.
    intros v Hv'. rewrite Hv by auto. by rewrite decide_True by lia.
Qed.

Lemma lcount_inv v : v < 256 ->
  lcount (fun p => 255 - nval p) nodes v = lcount nval nodes (255 - v).
Proof.
  intros Hv. unfold lcount. assert (forall p, p ∈ nodes -> nval p < 256) as Hn by apply nodes_val.
  revert Hn. generalize nodes. intros l. induction l as [|p l IH]; intros Hn; auto.
  rewrite !filter_cons. pose proof (Hn p ltac:(set_solver)). cbv beta in *.
  destruct (decide (255 - N.to_nat (val p) = v)), (decide (N.to_nat (val p) = 255 - v)); try lia;
    cbn [length]; rewrite ?IH; auto; set_solver.
Qed.

Lemma process_reuse_ok b : buf_between b ->
  exists b', process_tree_patch (cfgd ms w h 255 pt) false img cols (gid 0 0) b = Some b' /\
    length (b_pts b') = plen /\ (forall x, border x -> b_pts b' !! x = Some bnd) /\
    b_ext b' = b_ext b /\
    (forall v, v < 256 -> b_lvl b' !! v = Some (lcount (fun p => 255 - nval p) nodes v)) /\
    (forall r c, r < h -> c < w -> b_pts b' !! pid r c = Some 0%N) /\
    heapR cols top left w (base_of (b_lvl b')) (b_heap b') (b_hs b') (fun _ => []).
Proof.
  intros []. unfold process_tree_patch, reuse_branch, k_w2. cbn [k_w k_h cfgd].
  replace (w + 2 + 1) with (pid 0 0) by (unfold FloodRefine.pid; lia).
  destruct (reuse_rows_ok (b_pts b)) as (l1 & p1 & -> & Hl1 & Hz & Hk); auto.
  destruct (swap_ok (b_lvl b)) as (l2 & p2 & -> & Hl2 & Hs & _); auto.
  assert (forall v, v < 256 -> l2 !! v = Some (lcount (fun p => 255 - nval p) nodes v)) as Hlv.
  { intros v Hv. rewrite Hs, bb_lv0, lcount_inv by lia. done. }
  destruct (heap_init_ok (FBuf l1 (b_ext b) l2 (b_heap b) (b_hs b))) as (b2 & -> & E1 & E2 & E3 & HR); auto.
  { cbn [b_lvl b_heap]. rewrite bb_hp0. symmetry. apply (base_total (fun p => 255 - nval p)); auto.
    intros; lia. }
  cbn [b_pts b_ext b_lvl b_heap b_hs] in *.
  exists b2. rewrite E1, E2, E3. split; auto. split; auto. split.
  { intros x Hx. rewrite Hk; auto. }
  auto.
Qed.
End init.
