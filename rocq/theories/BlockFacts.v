(* Proofs about the block memory (BlockModel.v). *)
From stdpp Require Import sorting relations functions list_numbers list.
From Coq Require Import ZArith Lia.
From Verif Require Import BlockModel.
Local Open Scope nat_scope.

(* SPEC: where the element i lies *)
Definition place (s : bm) (sz i : nat) : option ptr :=
  match b_datas s !! (i / sz) with Some d => Some (d, i mod sz) | None => None end.

(* SPEC: the block memory s in the memory m holds the arena a; m0 is the memory of others *)
Record holds (x86 : bool) (m0 : memory) (s : bm) (m : memory) (a : arena) : Prop := Holds {
  h_size : block_size x86 (b_base s) = Some (b_size s);
  h_mask : b_mask s = b_size s - 1;
  h_elems : b_elems s = length (a_vals a);
  h_cur : b_cur s = Z.of_nat (length (a_vals a) / b_size s);
  h_data : exists d, b_datas s !! (length (a_vals a) / b_size s) = Some d /\ b_data s = Some (d, length (a_vals a) mod b_size s) /\ b_end s = Some (d, b_size s);
  h_max : b_max s = a_max a;
  h_nodup : NoDup (b_datas s);
  h_blocks : forall d, d ∈ b_datas s -> length m0 <= d /\ exists b, m !! d = Some (Some (b_new s, b)) /\ length b = b_size s;
  h_dead : forall d, length m0 <= d -> d ∉ b_datas s -> m !! d = None \/ m !! d = Some None;
  h_frame : take (length m0) m = m0;
  h_free : Forall2 (fun i p => i < length (a_vals a) /\ place s (b_size s) i = Some p) (a_free a) (b_reuse s);
  h_vals : forall i v, a_vals a !! i = Some v -> exists p, place s (b_size s) i = Some p /\ load m p = Some (Some v);
  h_begin : exists d, b_datas s !! 0 = Some d /\ b_begin s = Some (d, 0) }.

(* SPEC: nothing is allocated *)
Definition idle (m0 : memory) (s : bm) (m : memory) : Prop :=
  s = fresh_bm /\ take (length m0) m = m0 /\ forall d, length m0 <= d -> m !! d = None \/ m !! d = Some None.

(* SPEC: both *)
Definition state_ok (x86 : bool) (m0 : memory) (st : bm * memory) (a : option arena) : Prop :=
  match a with None => idle m0 (fst st) (snd st) | Some a => holds x86 m0 (fst st) (snd st) a end.

Lemma block_size_pow x86 base sz : block_size x86 base = Some sz -> exists c, shift_count x86 base = Some c /\ c < 31 /\ sz = 2 ^ c.
Proof.
  unfold block_size. destruct (shift_count x86 base) as [c|]; [|discriminate]. destruct (Nat.ltb_spec c 31); [|discriminate].
  intros [= <-]. exists c. split; [reflexivity|]. split; [assumption|]. rewrite Nat.shiftl_1_l. reflexivity.
Qed.
Lemma block_size_pos x86 base sz : block_size x86 base = Some sz -> 0 < sz.
Proof. intros H. destruct (block_size_pow _ _ _ H) as (c & _ & _ & ->). pose proof (Nat.pow_nonzero 2 c). lia. Qed.

Lemma at_place x86 s i : block_size x86 (b_base s) = Some (b_size s) -> b_mask s = b_size s - 1 -> bm_at x86 s i = place s (b_size s) i.
Proof.
  intros H M. destruct (block_size_pow _ _ _ H) as (c & E & _ & S). unfold bm_at, place. rewrite E, M, S.
  rewrite Nat.shiftr_div_pow2. destruct (b_datas s !! _); [|reflexivity].
  replace (2 ^ c - 1) with (Nat.ones c). 2:{ rewrite Nat.ones_equiv. lia. } rewrite Nat.land_ones. reflexivity.
Qed.

Lemma load_store m p v m' q : store m p v = Some m' -> load m' q = if decide (q = p) then Some (Some v) else load m q.
Proof.
  destruct p as [d o], q as [d' o']. unfold store, load. cbn [fst snd]. destruct (m !! d) as [[[k b]|]|] eqn:E; [|discriminate|discriminate].
  destruct (Nat.ltb_spec o (length b)); [|discriminate]. intros [= <-].
  assert (d < length m) by (apply lookup_lt_Some in E; exact E).
  destruct (decide (d' = d)) as [->|N].
  - rewrite list_lookup_insert by assumption. rewrite E. destruct (decide (o' = o)) as [->|N'].
    + rewrite decide_True by reflexivity. apply list_lookup_insert. assumption.
    + rewrite decide_False by congruence. apply list_lookup_insert_ne. congruence.
  - rewrite list_lookup_insert_ne by congruence. rewrite decide_False by congruence. reflexivity.
Qed.
Lemma store_some m d k b o v : m !! d = Some (Some (k, b)) -> o < length b ->
  store m (d, o) v = Some (<[d := Some (k, <[o := Some v]> b)]> m).
Proof. intros E H. unfold store. cbn [fst snd]. rewrite E. destruct (Nat.ltb_spec o (length b)); [reflexivity|lia]. Qed.

Lemma take_insert_ge {A} (m : list A) n d x : n <= d -> take n (<[d := x]> m) = take n m.
Proof. intros H. apply take_insert. exact H. Qed.

(* writing to a place of the arena *)
Lemma store_place x86 m0 s m a i v p :
  holds x86 m0 s m a -> place s (b_size s) i = Some p ->
  exists m', store m p v = Some m' /\
    (forall d, d ∈ b_datas s -> length m0 <= d /\ exists b, m' !! d = Some (Some (b_new s, b)) /\ length b = b_size s) /\
    (forall d, length m0 <= d -> d ∉ b_datas s -> m' !! d = None \/ m' !! d = Some None) /\
    take (length m0) m' = m0 /\ length m' = length m /\
    forall q, load m' q = if decide (q = p) then Some (Some v) else load m q.
Proof.
  intros H P. pose proof (block_size_pos _ _ _ (h_size _ _ _ _ _ H)) as POS.
  unfold place in P. destruct (b_datas s !! (i / b_size s)) as [d|] eqn:D; [|discriminate]. injection P as <-.
  assert (IN : d ∈ b_datas s) by (apply elem_of_list_lookup; eauto).
  destruct (h_blocks _ _ _ _ _ H d IN) as (LE & b & E & L).
  assert (O : i mod b_size s < length b) by (rewrite L; apply Nat.mod_upper_bound; lia).
  pose proof (store_some m d _ b _ v E O) as ST. eexists. split; [exact ST|].
  assert (d < length m) by (apply lookup_lt_Some in E; exact E).
  split; [|split; [|split; [|split]]].
  - intros d' IN'. destruct (h_blocks _ _ _ _ _ H d' IN') as (LE' & b' & E' & L'). split; [exact LE'|].
    destruct (decide (d' = d)) as [->|N].
    + exists (<[i mod b_size s := Some v]> b). rewrite list_lookup_insert by assumption. split; [reflexivity|]. rewrite insert_length. exact L.
    + exists b'. rewrite list_lookup_insert_ne by congruence. auto.
  - intros d' LE' NI. rewrite list_lookup_insert_ne by congruence. exact (h_dead _ _ _ _ _ H d' LE' NI).
  - rewrite take_insert_ge by exact LE. exact (h_frame _ _ _ _ _ H).
  - apply insert_length.
  - intros q. exact (load_store _ _ _ _ q ST).
Qed.

Lemma place_inj s sz i j p : NoDup (b_datas s) -> 0 < sz -> place s sz i = Some p -> place s sz j = Some p -> i = j.
Proof.
  intros ND POS. unfold place. destruct (b_datas s !! (i / sz)) as [d|] eqn:D; [|discriminate].
  destruct (b_datas s !! (j / sz)) as [d'|] eqn:D'; [|discriminate]. intros [= <-] [= -> M].
  pose proof (NoDup_lookup _ _ _ _ ND D D') as Q. rewrite (Nat.div_mod i sz), (Nat.div_mod j sz) by lia. rewrite Q, M. reflexivity.
Qed.

(* changing the value of one element *)
Lemma holds_set x86 m0 s m a i v p :
  holds x86 m0 s m a -> i < length (a_vals a) -> place s (b_size s) i = Some p ->
  exists m', store m p v = Some m' /\ length m' = length m /\ holds x86 m0 s m' (Arena (<[i := v]> (a_vals a)) (a_free a) (a_max a)).
Proof.
  intros H LT P. destruct (store_place _ _ _ _ _ i v p H P) as (m' & ST & B & D & F & LN & LD).
  exists m'. split; [exact ST|]. split; [exact LN|]. destruct H. constructor; cbn [a_vals a_free a_max]; rewrite ?insert_length; try assumption.
  intros j w E. destruct (decide (j = i)) as [->|N].
  - rewrite list_lookup_insert in E by exact LT. injection E as <-. exists p. split; [exact P|]. rewrite LD, decide_True by reflexivity. reflexivity.
  - rewrite list_lookup_insert_ne in E by congruence. destruct (h_vals0 j w E) as (q & Q & L). exists q. split; [exact Q|].
    rewrite LD, decide_False; [exact L|]. intros ->. apply N. apply (place_inj s (b_size s) j i p); auto. exact (block_size_pos _ _ _ h_size0).
Qed.

Lemma div_lt_sz n i sz : 0 < sz -> i <= n -> i / sz <= n / sz.
Proof. intros P H. apply Nat.div_le_mono; lia. Qed.

(* appending behind the elements *)
Lemma div_succ_in n sz : 0 < sz -> n mod sz + 1 < sz -> (n + 1) / sz = n / sz /\ (n + 1) mod sz = n mod sz + 1.
Proof.
  intros P H. rewrite (Nat.div_mod n sz) at 1 3 by lia.
  replace (sz * (n / sz) + n mod sz + 1) with (n mod sz + 1 + (n / sz) * sz) by lia.
  rewrite Nat.div_add, Nat.mod_add by lia. rewrite Nat.div_small, Nat.mod_small by lia. lia.
Qed.
Lemma div_succ_out n sz : 0 < sz -> sz <= n mod sz + 1 -> (n + 1) / sz = n / sz + 1 /\ (n + 1) mod sz = 0.
Proof.
  intros P H. pose proof (Nat.mod_upper_bound n sz). assert (n mod sz + 1 = sz) by lia.
  assert (E : n + 1 = (n / sz + 1) * sz) by (rewrite (Nat.div_mod n sz) at 1 by lia; nia).
  rewrite E, Nat.div_mul, Nat.mod_mul by lia. auto.
Qed.

Lemma place_datas s s' sz i p l : b_datas s' = b_datas s ++ l -> place s sz i = Some p -> place s' sz i = Some p.
Proof. unfold place. intros ->. destruct (b_datas s !! (i / sz)) as [d|] eqn:D; [|discriminate]. rewrite (lookup_app_l_Some _ _ _ _ D). auto. Qed.

Lemma holds_append x86 m0 s m a v :
  holds x86 m0 s m a -> a_free a = [] ->
  exists s' m', bm_append v s m = Some (s', m') /\ (exists l, b_datas s' = b_datas s ++ l) /\ b_size s' = b_size s /\ b_base s' = b_base s /\
    holds x86 m0 s' m' (Arena (a_vals a ++ [v]) [] (a_max a)).
Proof.
  intros H FR. pose proof (block_size_pos _ _ _ (h_size _ _ _ _ _ H)) as POS.
  assert (RE : b_reuse s = []) by (pose proof (h_free _ _ _ _ _ H) as F; rewrite FR in F; inversion F; reflexivity).
  destruct (h_data _ _ _ _ _ H) as (d & D & DT & EN). set (n := length (a_vals a)) in *.
  assert (P : place s (b_size s) n = Some (d, n mod b_size s)) by (unfold place; rewrite D; reflexivity).
  destruct (store_place _ _ _ _ _ n v _ H P) as (m1 & ST & B & DD & F & LN & LD).
  assert (MB : n mod b_size s < b_size s) by (apply Nat.mod_upper_bound; lia).
  unfold bm_append, bm_get. rewrite RE, DT. rewrite ST. unfold bm_add. rewrite RE, DT, EN.
  assert (VALS : forall s', (exists l, b_datas s' = b_datas s ++ l) -> forall i w, (a_vals a ++ [v]) !! i = Some w ->
     exists p, place s' (b_size s) i = Some p /\ load m1 p = Some (Some w)).
  { intros s' (l & EL) i w E. apply lookup_app_Some in E. destruct E as [E|(GE & E)].
    - destruct (h_vals _ _ _ _ _ H i w E) as (q & Q & L). exists q. split; [exact (place_datas _ _ _ _ _ _ EL Q)|].
      rewrite LD, decide_False; [exact L|]. intros ->. pose proof (place_inj s (b_size s) i n _ (h_nodup _ _ _ _ _ H) POS Q P).
      apply lookup_lt_Some in E. lia.
    - fold n in GE, E. assert (i = n) as -> by (apply lookup_lt_Some in E; cbn [length] in E; lia).
      rewrite Nat.sub_diag in E. injection E as <-. exists (d, n mod b_size s). split; [exact (place_datas _ _ _ _ _ _ EL P)|].
      rewrite LD, decide_True by reflexivity. reflexivity. }
  destruct H. destruct (Nat.leb_spec (b_size s) (n mod b_size s + 1)) as [FULL|ROOM].
  - destruct (div_succ_out n _ POS FULL) as (DV & MD).
    assert (NC : b_cur s = Z.of_nat (n / b_size s)) by exact h_cur0.
    assert (LD' : n / b_size s < length (b_datas s)) by (apply lookup_lt_Some in D; exact D).
    unfold next_block. cbn [b_cur b_datas b_begin b_data b_end b_elems b_size b_base b_mask b_new b_reuse b_max].
    destruct (Z.ltb_spec (Z.of_nat (length (b_datas s)) - 1) (b_cur s + 1)) as [LAST|MORE].
    + assert (LEN : length (b_datas s) = n / b_size s + 1) by lia.
      eexists _, _. split; [reflexivity|]. split; [eexists; reflexivity|]. split; [reflexivity|]. split; [reflexivity|].
      assert (M0 : length m0 <= length m1).
      { rewrite <- F. rewrite take_length. lia. }
      assert (FRESH : length m1 ∉ b_datas s).
      { intros IN. destruct (B _ IN) as (_ & b & E & _). apply lookup_lt_Some in E. lia. }
      constructor; cbn [b_cur b_datas b_begin b_data b_end b_elems b_size b_base b_mask b_new b_reuse b_max a_vals a_free a_max]; rewrite ?app_length; cbn [length]; fold n.
      * assumption.
      * assumption.
      * lia.
      * rewrite DV. lia.
      * rewrite DV, MD. exists (length m1). split; [|auto]. rewrite lookup_app_r by lia. replace (_ - _) with 0 by lia. reflexivity.
      * assumption.
      * apply NoDup_app. split; [assumption|]. split; [|apply NoDup_singleton]. intros x IN IN'. apply elem_of_list_singleton in IN'. subst. auto.
      * intros d' IN. apply elem_of_app in IN. destruct IN as [IN|IN].
        -- destruct (B d' IN) as (LE & b & E & L). split; [exact LE|]. exists b. split; [|exact L]. apply lookup_app_l_Some. exact E.
        -- apply elem_of_list_singleton in IN. subst d'. split; [exact M0|]. eexists. rewrite list_lookup_middle by reflexivity. split; [reflexivity|]. apply replicate_length.
      * intros d' LE NI. rewrite elem_of_app, elem_of_list_singleton in NI. destruct (decide (d' < length m1)).
        -- rewrite lookup_app_l by assumption. apply DD; tauto.
        -- left. apply lookup_ge_None. rewrite app_length. cbn [length]. assert (d' <> length m1) by tauto. lia.
      * rewrite take_app_le by exact M0. exact F.
      * constructor.
      * intros i w E. edestruct VALS as (p & PL & LO). 2: exact E. 2:{ exists p. split; [exact PL|].
          unfold load in *. destruct (m1 !! p.1) as [x|] eqn:X; [|discriminate]. rewrite (lookup_app_l_Some _ _ _ _ X). exact LO. }
        eexists. reflexivity.
      * destruct h_begin0 as (d0 & D0 & BG). exists d0. split; [|exact BG]. apply lookup_app_l_Some. exact D0.
    + assert (LEN : n / b_size s + 1 < length (b_datas s)) by lia.
      destruct (lookup_lt_is_Some_2 _ _ LEN) as (d' & D'). replace (Z.to_nat (b_cur s + 1)) with (n / b_size s + 1) by lia. rewrite D'.
      eexists _, _. split; [reflexivity|]. split; [exists []; cbn [b_datas]; symmetry; apply app_nil_r|]. split; [reflexivity|]. split; [reflexivity|].
      constructor; cbn [b_cur b_datas b_begin b_data b_end b_elems b_size b_base b_mask b_new b_reuse b_max a_vals a_free a_max]; rewrite ?app_length; cbn [length]; fold n; try assumption.
      * lia.
      * rewrite DV. lia.
      * rewrite DV, MD. exists d'. auto.
      * constructor.
      * apply VALS. exists []. cbn [b_datas]. symmetry. apply app_nil_r.
  - destruct (div_succ_in n _ POS ROOM) as (DV & MD).
    eexists _, _. split; [reflexivity|]. split; [exists []; cbn [b_datas]; symmetry; apply app_nil_r|]. split; [reflexivity|]. split; [reflexivity|].
    constructor; cbn [b_cur b_datas b_begin b_data b_end b_elems b_size b_base b_mask b_new b_reuse b_max a_vals a_free a_max]; rewrite ?app_length; cbn [length]; fold n; try assumption.
    * lia.
    * rewrite DV. exact h_cur0.
    * rewrite DV, MD. exists d. auto.
    * constructor.
    * apply VALS. exists []. cbn [b_datas]. symmetry. apply app_nil_r.
Qed.

(* freeing *)
Lemma free_all_ok new ds m : NoDup ds -> (forall d, d ∈ ds -> exists b, m !! d = Some (Some (new, b))) ->
  exists m', free_all new ds m = Some m' /\ length m' = length m /\ forall d, m' !! d = if decide (d ∈ ds) then Some None else m !! d.
Proof.
  revert m. induction ds as [|d ds IH]; intros m ND AL.
  - exists m. split; [reflexivity|]. split; [reflexivity|]. intros d. rewrite decide_False; [reflexivity|]. apply not_elem_of_nil.
  - apply NoDup_cons in ND. destruct ND as (NI & ND). destruct (AL d) as (b & E); [left|]. cbn [free_all]. rewrite E.
    replace (Bool.eqb new new) with true by (destruct new; reflexivity).
    assert (LT : d < length m) by (apply lookup_lt_Some in E; exact E).
    destruct (IH (<[d := None]> m)) as (m' & FA & LN & LK); [exact ND| |].
    { intros d' IN. destruct (AL d') as (b' & E'); [right; exact IN|]. exists b'. rewrite list_lookup_insert_ne; [exact E'|]. intros ->. contradiction. }
    exists m'. split; [exact FA|]. split; [rewrite LN; apply insert_length|]. intros d'. rewrite LK.
    destruct (decide (d' ∈ ds)) as [IN|NI'].
    + rewrite decide_True by (right; exact IN). reflexivity.
    + destruct (decide (d' = d)) as [->|N].
      * rewrite list_lookup_insert by exact LT. rewrite decide_True by left. reflexivity.
      * rewrite list_lookup_insert_ne by congruence. rewrite decide_False; [reflexivity|]. rewrite elem_of_cons. tauto.
Qed.

Lemma free_holds x86 m0 s m a : holds x86 m0 s m a ->
  exists m', free_all (b_new s) (b_datas s) m = Some m' /\ length m' = length m /\ take (length m0) m' = m0 /\
    forall d, length m0 <= d -> m' !! d = None \/ m' !! d = Some None.
Proof.
  intros H. destruct (free_all_ok (b_new s) (b_datas s) m (h_nodup _ _ _ _ _ H)) as (m' & FA & LN & LK).
  { intros d IN. destruct (h_blocks _ _ _ _ _ H d IN) as (_ & b & E & _). eauto. }
  exists m'. split; [exact FA|]. split; [exact LN|]. split.
  - rewrite <- (h_frame _ _ _ _ _ H) at 2. apply list_eq. intros i. destruct (decide (i < length m0)).
    + rewrite !lookup_take by assumption. rewrite LK, decide_False; [reflexivity|]. intros IN. destruct (h_blocks _ _ _ _ _ H i IN). lia.
    + rewrite !lookup_take_ge by lia. reflexivity.
  - intros d LE. rewrite LK. destruct (decide (d ∈ b_datas s)); [auto|]. exact (h_dead _ _ _ _ _ H d LE n).
Qed.

(* a new first block *)
Lemma first_block x86 m0 base new max sz begin0 data0 end0 elems0 reuse0 max0 m :
  block_size x86 base = Some sz -> take (length m0) m = m0 -> (forall d, length m0 <= d -> m !! d = None \/ m !! d = Some None) ->
  exists s' m', next_block (BM begin0 data0 end0 (-1) elems0 sz base (sz - 1) new reuse0 max0 []) m = Some (s', m') /\
    holds x86 m0 (BM (match b_datas s' with d :: _ => Some (d, 0) | [] => None end) (b_data s') (b_end s') (b_cur s') 0
                            (b_size s') (b_base s') (b_mask s') (b_new s') [] max (b_datas s')) m' (Arena [] [] max).
Proof.
  intros BS F DD. pose proof (block_size_pos _ _ _ BS) as POS. assert (M0 : length m0 <= length m) by (rewrite <- F, take_length; lia).
  eexists _, _. split; [reflexivity|].
  constructor; cbn [b_cur b_datas b_begin b_data b_end b_elems b_size b_base b_mask b_new b_reuse b_max a_vals a_free a_max app length];
    rewrite ?Nat.div_0_l, ?Nat.mod_0_l by lia; try reflexivity; try assumption.
  - exists (length m). auto.
  - apply NoDup_singleton.
  - intros d IN. apply elem_of_list_singleton in IN. subst d. split; [exact M0|]. eexists. rewrite list_lookup_middle by reflexivity.
    split; [reflexivity|]. apply replicate_length.
  - intros d LE NI. rewrite elem_of_list_singleton in NI. destruct (decide (d < length m)).
    + rewrite lookup_app_l by assumption. apply DD. exact LE.
    + left. apply lookup_ge_None. rewrite app_length. cbn [length]. lia.
  - rewrite take_app_le by exact M0. exact F.
  - constructor.
  - intros i v E. rewrite lookup_nil in E. discriminate.
  - exists (length m). auto.
Qed.

Lemma init_holds x86 m0 base new max s m a sz :
  holds x86 m0 s m a -> block_size x86 base = Some sz ->
  exists s' m', bm_init x86 base new max s m = Some (s', m') /\ holds x86 m0 s' m' (Arena [] [] max) /\
    (base = b_base s -> new = b_new s -> m' = m /\ b_datas s' = b_datas s).
Proof.
  intros H BS. unfold bm_init. destruct (Nat.eqb_spec base (b_base s)) as [EB|NB]; cbn [andb].
  1: destruct (Bool.eqb (b_new s) new) eqn:EN.
  - apply Bool.eqb_prop in EN. destruct (h_begin _ _ _ _ _ H) as (d & D & BG). destruct (b_datas s) as [|d' ds] eqn:DS; [discriminate|]. injection D as ->.
    eexists _, _. split; [reflexivity|]. split; [|cbn [b_datas]; auto]. pose proof (block_size_pos _ _ _ (h_size _ _ _ _ _ H)) as POS. destruct H.
    cbn [b_cur b_datas b_begin b_data b_end b_elems b_size b_base b_mask b_new b_reuse b_max].
    constructor; cbn [b_cur b_datas b_begin b_data b_end b_elems b_size b_base b_mask b_new b_reuse b_max a_vals a_free a_max length];
      rewrite ?Nat.div_0_l, ?Nat.mod_0_l, <- ?DS by lia; try reflexivity; try assumption.
    + exists d. rewrite DS. auto.
    + constructor.
    + intros i v E. rewrite lookup_nil in E. discriminate.
  - rewrite BS. destruct (free_holds _ _ _ _ _ H) as (m1 & FA & _ & F & DD). rewrite FA.
    destruct (first_block x86 m0 base new max sz (b_begin s) (b_data s) (b_end s) (b_elems s) (b_reuse s) (b_max s) m1 BS F DD) as (s' & m' & NB & HH).
    rewrite NB. eexists _, _. split; [reflexivity|]. split; [exact HH|]. intros _ ->. destruct (b_new s); discriminate.
  - rewrite BS. destruct (free_holds _ _ _ _ _ H) as (m1 & FA & _ & F & DD). rewrite FA.
    destruct (first_block x86 m0 base new max sz (b_begin s) (b_data s) (b_end s) (b_elems s) (b_reuse s) (b_max s) m1 BS F DD) as (s' & m' & NB' & HH).
    rewrite NB'. eexists _, _. split; [reflexivity|]. split; [exact HH|]. intros ->. contradiction.
Qed.
Lemma init_idle x86 m0 base new max s m sz :
  idle m0 s m -> block_size x86 base = Some sz -> (base =? 0) && negb new = false ->
  exists s' m', bm_init x86 base new max s m = Some (s', m') /\ holds x86 m0 s' m' (Arena [] [] max).
Proof.
  intros (-> & F & DD) BS NZ. unfold bm_init. cbn [b_base b_new fresh_bm b_datas free_all].
  replace ((base =? 0) && Bool.eqb false new) with false by (destruct (base =? 0), new; cbn in *; congruence).
  rewrite BS. destruct (first_block x86 m0 base new max sz None None None 0 [] 0 m BS F DD) as (s' & m' & NB & HH).
  cbn [b_begin b_data b_end b_elems b_reuse b_max fresh_bm]. rewrite NB. eexists _, _. split; [reflexivity|]. exact HH.
Qed.

Lemma holds_place x86 m0 s m a i : holds x86 m0 s m a -> i < length (a_vals a) -> exists p, place s (b_size s) i = Some p.
Proof. intros H LT. destruct (lookup_lt_is_Some_2 _ _ LT) as (v & E). destruct (h_vals _ _ _ _ _ H i v E) as (p & P & _). eauto. Qed.

(* every operation *)
Lemma run_op_ok x86 m0 o s m st st' :
  state_ok x86 m0 (s, m) st -> spec_op x86 o st = Some st' ->
  exists s' m', run_op x86 o (s, m) = Some (s', m') /\ state_ok x86 m0 (s', m') st'.
Proof.
  intros OK SP. destruct o as [base new max| | |v|i v|i], st as [a|]; cbn [spec_op state_ok fst snd run_op] in *.
  - destruct (block_size x86 base) as [sz|] eqn:BS; [|discriminate]. injection SP as <-.
    destruct (init_holds x86 m0 base new max s m a sz OK BS) as (s' & m' & E & H & _). exists s', m'. auto.
  - destruct (block_size x86 base) as [sz|] eqn:BS; [|discriminate]. destruct ((base =? 0) && negb new) eqn:NZ; [discriminate|]. injection SP as <-.
    destruct (init_idle x86 m0 base new max s m sz OK BS NZ) as (s' & m' & E & H). exists s', m'. auto.
  - injection SP as <-. unfold bm_reset. destruct (init_holds x86 m0 (b_base s) (b_new s) (b_max s) s m a _ OK (h_size _ _ _ _ _ OK)) as (s' & m' & E & H & _).
    exists s', m'. split; [exact E|]. cbn [state_ok fst snd]. rewrite <- (h_max _ _ _ _ _ OK). exact H.
  - discriminate.
  - injection SP as <-. destruct (free_holds _ _ _ _ _ OK) as (m' & FA & _ & F & DD). unfold bm_clear. rewrite FA.
    exists fresh_bm, m'. split; [reflexivity|]. cbn [state_ok fst snd]. split; auto.
  - injection SP as <-. destruct OK as (-> & F & DD). exists fresh_bm, m. split; [reflexivity|]. split; auto.
  - injection SP as <-. destruct (a_free a) as [|i f] eqn:FR.
    + destruct (holds_append x86 m0 s m a v OK FR) as (s' & m' & E & _ & _ & _ & H). exists s', m'. split; [exact E|]. exact H.
    + pose proof (h_free _ _ _ _ _ OK) as F2. rewrite FR in F2. destruct (b_reuse s) as [|p ps] eqn:RU; [inversion F2|]. apply Forall2_cons in F2. destruct F2 as ((LT & P) & F2').
      destruct (holds_set x86 m0 s m a i v p OK LT P) as (m' & ST & _ & HH). unfold bm_append, bm_get. rewrite RU, ST. unfold bm_add. rewrite RU.
      eexists _, m'. split; [reflexivity|]. cbn [state_ok fst snd]. destruct HH. cbn [a_vals a_free a_max] in *.
      constructor; cbn [b_cur b_datas b_begin b_data b_end b_elems b_size b_base b_mask b_new b_reuse b_max a_vals a_free a_max]; try assumption.
      rewrite insert_length. exact F2'.
  - discriminate.
  - destruct (Nat.ltb_spec i (length (a_vals a))) as [LT|]; [|discriminate]. injection SP as <-.
    destruct (holds_place _ _ _ _ _ i OK LT) as (p & P). rewrite (at_place x86 s i (h_size _ _ _ _ _ OK) (h_mask _ _ _ _ _ OK)), P.
    destruct (holds_set x86 m0 s m a i v p OK LT P) as (m' & ST & _ & HH). rewrite ST. exists s, m'. split; [reflexivity|]. exact HH.
  - discriminate.
  - destruct (Nat.ltb_spec i (length (a_vals a))) as [LT|]; [|discriminate]. injection SP as <-.
    destruct (holds_place _ _ _ _ _ i OK LT) as (p & P). rewrite (at_place x86 s i (h_size _ _ _ _ _ OK) (h_mask _ _ _ _ _ OK)), P.
    eexists _, m. split; [reflexivity|]. cbn [state_ok fst snd]. unfold bm_release.
    rewrite <- (Forall2_length _ _ _ (h_free _ _ _ _ _ OK)), (h_max _ _ _ _ _ OK).
    destruct (length (a_free a) <? a_max a); [|exact OK]. destruct OK.
    constructor; cbn [b_cur b_datas b_begin b_data b_end b_elems b_size b_base b_mask b_new b_reuse b_max a_vals a_free a_max]; try assumption; try reflexivity.
    constructor; [auto|assumption].
  - discriminate.
Qed.

Lemma run_ops_ok x86 m0 os : forall s m st st',
  state_ok x86 m0 (s, m) st -> spec_ops x86 os st = Some st' ->
  exists s' m', run_ops x86 os (s, m) = Some (s', m') /\ state_ok x86 m0 (s', m') st'.
Proof.
  induction os as [|o os IH]; intros s m st st' OK SP; cbn [run_ops spec_ops] in *.
  - injection SP as <-. eauto.
  - destruct (spec_op x86 o st) as [st1|] eqn:E; [|discriminate].
    destruct (run_op_ok x86 m0 o s m st st1 OK E) as (s1 & m1 & R & OK1). rewrite R. exact (IH _ _ _ _ OK1 SP).
Qed.

(* iteration *)
Lemma iterate_step n s p : bm_iterate (S n) s p =
  match bm_visit s p with
  | None => None
  | Some None => Some []
  | Some (Some p') => match p_data p' with Some q => option_map (cons q) (bm_iterate n s p') | None => None end
  end.
Proof. reflexivity. Qed.
Lemma visit_loop x86 m0 s m a : holds x86 m0 s m a ->
  forall k i p, k = length (a_vals a) - i -> i <= length (a_vals a) ->
  p_visit p = i ->
  (i = 0 /\ p = bpos0 \/ 0 < i /\ p_block p = (i - 1) / b_size s /\ p_index p = (i - 1) mod b_size s + 1 /\ p_data p = place s (b_size s) (i - 1)) ->
  exists ps, bm_iterate (S k) s p = Some ps /\ length ps = k /\ forall j q, ps !! j = Some q -> place s (b_size s) (i + j) = Some q.
Proof.
  intros H. pose proof (block_size_pos _ _ _ (h_size _ _ _ _ _ H)) as POS.
  induction k as [|k IH]; intros i p K LE V ST; rewrite iterate_step; unfold bm_visit at 1; rewrite (h_elems _ _ _ _ _ H), V.
  - destruct (Nat.leb_spec (length (a_vals a)) i); [|lia]. exists []. split; [reflexivity|]. split; [reflexivity|]. intros j q E. rewrite lookup_nil in E. discriminate.
  - destruct (Nat.leb_spec (length (a_vals a)) i); [lia|].
    destruct (holds_place _ _ _ _ _ i H) as (q & Q); [lia|].
    set (nb := if p_index p =? b_size s then (p_block p + 1, 0) else (p_block p, p_index p)).
    assert (NB : nb = (i / b_size s, i mod b_size s)).
    { unfold nb. destruct ST as [(-> & ->)|(GT & PB & PI & PD)].
      - cbn [bpos0 p_index p_block]. destruct (Nat.eqb_spec 0 (b_size s)); [lia|]. rewrite Nat.div_0_l, Nat.mod_0_l by lia. reflexivity.
      - rewrite PB, PI. destruct (Nat.eqb_spec ((i - 1) mod b_size s + 1) (b_size s)) as [E|N].
        + destruct (div_succ_out (i - 1) _ POS) as (DV & MD); [lia|]. replace (i - 1 + 1) with i in * by lia. rewrite DV, MD. reflexivity.
        + pose proof (Nat.mod_upper_bound (i - 1) (b_size s)).
          destruct (div_succ_in (i - 1) _ POS) as (DV & MD); [lia|]. replace (i - 1 + 1) with i in * by lia. rewrite DV, MD. reflexivity. }
    fold nb. rewrite NB.
    assert (NX : (if i mod b_size s =? 0 then match b_datas s !! (i / b_size s) with Some d => Some (d, 0) | None => None end
         else match p_data p with Some (d, o) => Some (d, o + 1) | None => None end) = Some q).
    { unfold place in Q. destruct (Nat.eqb_spec (i mod b_size s) 0) as [E|N].
      - destruct (b_datas s !! (i / b_size s)) as [d|]; [|discriminate]. rewrite E in Q. exact Q.
      - destruct ST as [(-> & ->)|(GT & PB & PI & PD)]; [rewrite Nat.mod_0_l in N by lia; lia|].
        rewrite PD. unfold place.
        pose proof (Nat.mod_upper_bound (i - 1) (b_size s)).
        destruct (decide ((i - 1) mod b_size s + 1 < b_size s)).
        + destruct (div_succ_in (i - 1) _ POS) as (DV & MD); [lia|]. replace (i - 1 + 1) with i in * by lia. rewrite <- DV.
          destruct (b_datas s !! (i / b_size s)) as [d|]; [|discriminate]. rewrite MD in Q. exact Q.
        + destruct (div_succ_out (i - 1) _ POS) as (DV & MD); [lia|]. replace (i - 1 + 1) with i in * by lia. lia. }
    rewrite NX. cbn [p_data].
    destruct (IH (i + 1) (BPos (Some q) (i / b_size s) (i mod b_size s + 1) (i + 1))) as (ps & IT & LN & LK).
    + lia.
    + lia.
    + reflexivity.
    + right. cbn [p_block p_index p_data]. replace (i + 1 - 1) with i by lia. split; [lia|]. auto.
    + rewrite IT. exists (q :: ps). split; [reflexivity|]. split; [cbn [length]; lia|]. intros [|j] q' E.
      * injection E as <-. rewrite Nat.add_0_r. exact Q.
      * replace (i + S j) with (i + 1 + j) by lia. apply LK. exact E.
Qed.

Lemma iterate_ok x86 m0 s m a : holds x86 m0 s m a ->
  exists ps, bm_iterate (S (b_elems s)) s bpos0 = Some ps /\ NoDup ps /\
    Forall2 (fun p v => load m p = Some (Some v)) ps (a_vals a) /\ forall i, i < length (a_vals a) -> bm_at x86 s i = ps !! i.
Proof.
  intros H. destruct (visit_loop x86 m0 s m a H (length (a_vals a)) 0 bpos0) as (ps & IT & LN & LK); [lia|lia|reflexivity|auto|].
  rewrite (h_elems _ _ _ _ _ H). exists ps. split; [exact IT|]. split; [|split].
  - apply NoDup_alt. intros i j p E1 E2. apply LK in E1, E2. exact (place_inj _ _ _ _ _ (h_nodup _ _ _ _ _ H) (block_size_pos _ _ _ (h_size _ _ _ _ _ H)) E1 E2).
  - apply Forall2_same_length_lookup. split; [exact LN|]. intros i p v E1 E2. apply LK in E1. destruct (h_vals _ _ _ _ _ H i v E2) as (q & Q & L).
    cbn in E1. rewrite E1 in Q. injection Q as <-. exact L.
  - intros i LT. rewrite (at_place x86 s i (h_size _ _ _ _ _ H) (h_mask _ _ _ _ _ H)). rewrite <- LN in LT.
    destruct (lookup_lt_is_Some_2 _ _ LT) as (p & E). rewrite E. exact (LK i p E).
Qed.

(* the theorem on lifetimes *)
Lemma start_ok x86 m0 : state_ok x86 m0 (fresh_bm, m0) None.
Proof. split; [reflexivity|]. cbn [fst snd]. split; [apply firstn_all|]. intros d LE. left. apply lookup_ge_None. exact LE. Qed.

Lemma lifetime_ok x86 m0 os a : spec_ops x86 os None = Some (Some a) ->
  exists s m ps, run_ops x86 os (fresh_bm, m0) = Some (s, m) /\ b_elems s = length (a_vals a) /\
    bm_iterate (S (b_elems s)) s bpos0 = Some ps /\ NoDup ps /\
    Forall2 (fun p v => load m p = Some (Some v)) ps (a_vals a) /\ (forall i, i < length (a_vals a) -> bm_at x86 s i = ps !! i) /\
    take (length m0) m = m0.
Proof.
  intros SP. destruct (run_ops_ok x86 m0 os _ _ _ _ (start_ok x86 m0) SP) as (s & m & R & H). cbn [state_ok fst snd] in H.
  destruct (iterate_ok _ _ _ _ _ H) as (ps & IT & ND & F & AT). exists s, m, ps. split; [exact R|].
  split; [exact (h_elems _ _ _ _ _ H)|]. split; [exact IT|]. split; [exact ND|]. split; [exact F|]. split; [exact AT|]. exact (h_frame _ _ _ _ _ H).
Qed.
Lemma cleared_ok x86 m0 os : spec_ops x86 os None = Some None ->
  exists s m, run_ops x86 os (fresh_bm, m0) = Some (s, m) /\ take (length m0) m = m0 /\ forall d, length m0 <= d -> m !! d = None \/ m !! d = Some None.
Proof.
  intros SP. destruct (run_ops_ok x86 m0 os _ _ _ _ (start_ok x86 m0) SP) as (s & m & R & (_ & F & D)). eauto.
Qed.

(* SPEC: operations after which elements keep their address *)
Definition keeps_blocks (o : bop) : Prop := match o with BInit _ _ _ | BClear => False | _ => True end.

Lemma op_datas x86 m0 o s m a st' s' m' :
  holds x86 m0 s m a -> spec_op x86 o (Some a) = Some st' -> keeps_blocks o -> run_op x86 o (s, m) = Some (s', m') ->
  (exists l, b_datas s' = b_datas s ++ l) /\ b_base s' = b_base s /\ b_mask s' = b_mask s.
Proof.
  assert (NIL : forall l : list nat, exists l', l = l ++ l') by (intros l; exists []; symmetry; apply app_nil_r).
  intros H SP KB R. destruct o as [base new max| | |v|i v|i]; cbn [keeps_blocks run_op] in *; try contradiction.
  - unfold bm_reset in R. unfold bm_init in R. rewrite Nat.eqb_refl in R. replace (Bool.eqb (b_new s) (b_new s)) with true in R by (destruct (b_new s); reflexivity).
    cbn [andb] in R. destruct (b_datas s) as [|d ds] eqn:DS; [discriminate|]. injection R as <- <-.
    cbn [b_cur b_datas b_begin b_data b_end b_elems b_size b_base b_mask b_new b_reuse b_max]. auto.
  - unfold bm_append in R. destruct (bm_get s) as [p|]; [|discriminate]. destruct (store m p v) as [m1|]; [|discriminate]. unfold bm_add in R.
    destruct (b_reuse s) as [|q r].
    + destruct (b_data s) as [[d o]|]; [|discriminate]. destruct (b_end s) as [[d' e]|]; [|discriminate].
      destruct (e <=? o + 1).
      * unfold next_block in R. cbn [b_cur b_datas b_begin b_data b_end b_elems b_size b_base b_mask b_new b_reuse b_max] in R.
        destruct (Z.of_nat _ - 1 <? _)%Z.
        -- injection R as <- <-. cbn [b_datas b_base b_mask]. eauto.
        -- destruct (b_datas s !! _); [|discriminate]. injection R as <- <-. cbn [b_datas b_base b_mask]. auto.
      * injection R as <- <-. cbn [b_datas b_base b_mask]. auto.
    + injection R as <- <-. cbn [b_datas b_base b_mask]. auto.
  - destruct (bm_at x86 s i) as [p|]; [|discriminate]. destruct (store m p v); [|discriminate]. injection R as <- <-. auto.
  - destruct (bm_at x86 s i) as [p|]; [|discriminate]. injection R as <- <-. unfold bm_release. destruct (_ <? _); auto.
Qed.

Lemma stable_ok x86 m0 os : forall s m a a' s' m',
  holds x86 m0 s m a -> spec_ops x86 os (Some a) = Some (Some a') -> (forall o, o ∈ os -> keeps_blocks o) ->
  run_ops x86 os (s, m) = Some (s', m') -> forall i p, bm_at x86 s i = Some p -> bm_at x86 s' i = Some p.
Proof.
  induction os as [|o os IH]; intros s m a a' s' m' H SP KB R i p E; cbn [run_ops spec_ops] in *.
  - injection R as <- <-. exact E.
  - destruct (spec_op x86 o (Some a)) as [st1|] eqn:SO; [|discriminate].
    destruct (run_op_ok x86 m0 o s m (Some a) st1 H SO) as (s1 & m1 & R1 & OK1). rewrite R1 in R.
    assert (K : keeps_blocks o) by (apply KB; left).
    destruct (op_datas _ _ _ _ _ _ _ _ _ H SO K R1) as ((l & DS) & BB & BMK).
    destruct st1 as [a1|]; [|destruct o; cbn in SO, K; try contradiction; repeat case_match; discriminate].
    apply (IH s1 m1 a1 a' s' m' OK1 SP). { intros o' IN. apply KB. right. exact IN. } { exact R. }
    unfold bm_at in *. rewrite BB, DS, BMK. destruct (shift_count x86 (b_base s)); [|discriminate].
    destruct (b_datas s !! _) as [d|] eqn:D; [|discriminate]. rewrite (lookup_app_l_Some _ _ _ _ D). exact E.
Qed.
Lemma spec_ops_app x86 os1 : forall os2 st st2, spec_ops x86 (os1 ++ os2) st = Some st2 -> exists st1, spec_ops x86 os1 st = Some st1 /\ spec_ops x86 os2 st1 = Some st2.
Proof.
  induction os1 as [|o os IH]; intros os2 st st2 E; cbn [app spec_ops] in *; [eauto|].
  destruct (spec_op x86 o st) as [st1|]; [|discriminate]. apply IH. exact E.
Qed.
Lemma run_ops_app x86 os1 : forall os2 st, run_ops x86 (os1 ++ os2) st = match run_ops x86 os1 st with Some st1 => run_ops x86 os2 st1 | None => None end.
Proof. induction os1 as [|o os IH]; intros os2 st; cbn [app run_ops]; [reflexivity|]. destruct (run_op x86 o st); auto. Qed.

Lemma addresses_ok x86 m0 os os' a a' : spec_ops x86 os None = Some (Some a) -> spec_ops x86 os' (Some a) = Some (Some a') -> (forall o, o ∈ os' -> keeps_blocks o) ->
  exists s m s' m', run_ops x86 os (fresh_bm, m0) = Some (s, m) /\ run_ops x86 (os ++ os') (fresh_bm, m0) = Some (s', m') /\
    forall i, i < length (a_vals a) -> exists p, bm_at x86 s i = Some p /\ bm_at x86 s' i = Some p.
Proof.
  intros S1 S2 KB. destruct (run_ops_ok x86 m0 os _ _ _ _ (start_ok x86 m0) S1) as (s & m & R & H). cbn [state_ok fst snd] in H.
  destruct (run_ops_ok x86 m0 os' s m (Some a) _ H S2) as (s' & m' & R' & H').
  exists s, m, s', m'. split; [exact R|]. split; [rewrite run_ops_app, R; exact R'|]. intros i LT.
  destruct (holds_place _ _ _ _ _ i H LT) as (p & P). rewrite <- (at_place x86 s i (h_size _ _ _ _ _ H) (h_mask _ _ _ _ _ H)) in P.
  exists p. split; [exact P|]. exact (stable_ok x86 m0 os' s m a a' s' m' H S2 KB R' i p P).
Qed.

(* init with the same exponent keeps the blocks *)
Lemma again_ok x86 m0 os a base new max : spec_ops x86 os None = Some (Some a) ->
  exists s m, run_ops x86 os (fresh_bm, m0) = Some (s, m) /\
  (base = b_base s -> new = b_new s -> exists s', bm_init x86 base new max s m = Some (s', m) /\ b_datas s' = b_datas s /\ b_elems s' = 0).
Proof.
  intros S1. destruct (run_ops_ok x86 m0 os _ _ _ _ (start_ok x86 m0) S1) as (s & m & R & H). cbn [state_ok fst snd] in H.
  exists s, m. split; [exact R|]. intros -> ->. destruct (init_holds x86 m0 (b_base s) (b_new s) max s m a _ H (h_size _ _ _ _ _ H)) as (s' & m' & E & H' & K).
  destruct (K eq_refl eq_refl) as (-> & D). exists s'. split; [exact E|]. split; [exact D|]. exact (h_elems _ _ _ _ _ H').
Qed.

(* in_block *)
Lemma in_block_fails x86 m0 os a addr : spec_ops x86 os None = Some (Some a) ->
  exists s m, run_ops x86 os (fresh_bm, m0) = Some (s, m) /\
    (b_size s <= length (a_vals a) ->
     (forall i j d e, i < j -> b_datas s !! i = Some d -> b_datas s !! j = Some e -> addr d + b_size s <= addr e) ->
     forall i d o, i < length (a_vals a) / b_size s * b_size s -> bm_at x86 s i = Some (d, o) -> bm_in_block addr s (addr d + o) = Some false).
Proof.
  intros S1. destruct (run_ops_ok x86 m0 os _ _ _ _ (start_ok x86 m0) S1) as (s & m & R & H). cbn [state_ok fst snd] in H.
  exists s, m. split; [exact R|]. intros BIG ASC i d o LT AT. pose proof (block_size_pos _ _ _ (h_size _ _ _ _ _ H)) as POS.
  rewrite (at_place x86 s i (h_size _ _ _ _ _ H) (h_mask _ _ _ _ _ H)) in AT. unfold place in AT.
  destruct (b_datas s !! (i / b_size s)) as [d'|] eqn:D; [|discriminate]. injection AT as -> <-.
  destruct (h_data _ _ _ _ _ H) as (e & E & DT & _). destruct (h_begin _ _ _ _ _ H) as (b & B & BG).
  set (n := length (a_vals a)) in *. set (sz := b_size s) in *.
  assert (IL : i / sz < n / sz) by (apply Nat.div_lt_upper_bound; lia).
  pose proof (ASC _ _ _ _ IL D E) as A1.
  pose proof (Nat.mod_upper_bound i sz) as MB.
  assert (A0 : addr b <= addr d).
  { destruct (decide (i / sz = 0)) as [Z|N]; [rewrite Z, B in D; injection D as <-; lia|]. pose proof (ASC 0 (i / sz) b d ltac:(lia) B D). lia. }
  unfold bm_in_block. rewrite BG, DT, (h_cur _ _ _ _ _ H). fold n sz. rewrite Nat2Z.id, E.
  destruct (Z.eqb_spec (Z.of_nat (n / sz)) (-1)); [lia|]. cbn [orb].
  destruct (Nat.ltb_spec (addr d + i mod sz) (addr b + 0)); [lia|]. cbn [orb].
  destruct (Nat.leb_spec (addr e + n mod sz) (addr d + i mod sz)); [lia|].
  destruct (Nat.leb_spec (addr e) (addr d + i mod sz)); [lia|]. cbn [andb].
  f_equal. apply not_true_iff_false. intros ALL. rewrite forallb_forall in ALL.
  assert (IN : In d (take (n / sz) (b_datas s))).
  { apply elem_of_list_In. apply elem_of_list_lookup. exists (i / sz). rewrite lookup_take by exact IL. exact D. }
  specialize (ALL d IN). apply negb_true_iff, andb_false_iff in ALL.
  destruct ALL as [X|X]; [apply Nat.leb_gt in X; lia|]. apply Nat.ltb_ge in X. lia.
Qed.

Lemma region_blocks :
  (forall new max s m, b_base s = 0 -> bm_init false 2000 new max s m = None) /\ block_size true 2000 = Some (Nat.pow 2 16).
Proof.
  split. 2:{ unfold block_size. assert (E : shift_count true 2000 = Some 16) by (vm_compute; reflexivity). rewrite E.
    assert (L : (16 <? 31) = true) by reflexivity. rewrite L. rewrite Nat.shiftl_1_l. reflexivity. }
  intros new max s m B. unfold bm_init. rewrite B.
  replace (2000 =? 0) with false by (vm_compute; reflexivity). cbn [andb].
  replace (block_size false 2000) with (@None nat) by (vm_compute; reflexivity). reflexivity.
Qed.
