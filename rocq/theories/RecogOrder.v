(* The counting sort of the candidates. *)
From stdpp Require Import sorting relations functions list.
From Coq Require Import NArith ZArith SpecFloat.
From Verif Require Import Spec TreeSpec TreeFacts JoinMath FloodModel ConnectModel ConnectProof FloatModel FloatFacts
  RecogModel RecogSpec RecogStatic RecogWorkers RecogSched RecogNms.
Local Open Scope nat_scope.

(* ---------- the candidate buffer ---------- *)
Lemma size_buffer_ok b total : (N.of_nat total * 5 < 2 ^ 32)%N -> total <= cb_cap (size_buffer b total).
Proof.
  intros Ht. unfold size_buffer. rewrite N.mod_small by lia. destruct (N.ltb_spec (N.of_nat total * 5) (N.of_nat (cb_cap b))).
  - destruct (_ <? _); cbn; lia.
  - cbn. lia.
Qed.

(* ---------- concatenated lists ---------- *)
Definition offs {A} (ls : list (list A)) (g : nat) : nat := length (concat (take g ls)).
Lemma concat_split {A} (ls : list (list A)) g l : ls !! g = Some l ->
  concat ls = concat (take g ls) ++ l ++ concat (drop (S g) ls).
Proof. intros H. rewrite <-(take_drop_middle ls g l H) at 1. rewrite concat_app. done. Qed.
Lemma offs_S {A} (ls : list (list A)) g l : ls !! g = Some l -> offs ls (S g) = offs ls g + length l.
Proof.
  intros H. unfold offs. rewrite (take_S_r _ _ _ H), concat_app, app_length. cbn [concat]. by rewrite app_nil_r.
Qed.
Lemma offs_mono {A} (ls : list (list A)) g h : g <= h -> offs ls g <= offs ls h.
Proof.
  intros H. unfold offs. replace h with (g + (h - g)) by lia.
  assert (take g ls = take g (take (g + (h - g)) ls)) as -> by (rewrite take_take; f_equal; lia).
  rewrite <-(take_drop g (take (g + (h - g)) ls)) at 2. rewrite concat_app, app_length. lia.
Qed.
Lemma concat_lookup {A} (ls : list (list A)) g l k : ls !! g = Some l -> k < length l ->
  concat ls !! (offs ls g + k) = l !! k.
Proof.
  intros H Hk. rewrite (concat_split ls g l H). unfold offs. rewrite lookup_app_r by lia.
  rewrite lookup_app_l by lia. f_equal. lia.
Qed.
Lemma concat_index {A} (ls : list (list A)) i : i < length (concat ls) ->
  exists g l k, ls !! g = Some l /\ k < length l /\ i = offs ls g + k.
Proof.
  revert i. induction ls as [|m ls IH]; intros i Hi; cbn [concat] in Hi; [cbn in Hi; lia|].
  rewrite app_length in Hi. destruct (decide (i < length m)) as [Hlt|Hge].
  - exists 0, m, i. split; auto.
  - destruct (IH (i - length m)) as (g & l & k & H1 & H2 & H3); [lia|]. exists (S g), l, k. split; auto. split; auto.
    unfold offs. cbn [take concat]. rewrite app_length. unfold offs in H3. lia.
Qed.
(* blocks of a concatenation are disjoint *)
Lemma offs_disjoint {A} (ls : list (list A)) g h l m j k : ls !! g = Some l -> ls !! h = Some m -> g <> h ->
  j < length l -> k < length m -> offs ls g + j <> offs ls h + k.
Proof.
  intros Hg Hh Hne Hj Hk. destruct (decide (g < h)).
  - pose proof (offs_mono ls (S g) h). rewrite (offs_S ls g l Hg) in H. lia.
  - pose proof (offs_mono ls (S h) g). rewrite (offs_S ls h m Hh) in H. lia.
Qed.
Lemma offs_le {A} (ls : list (list A)) g l k : ls !! g = Some l -> k < length l -> offs ls g + k < length (concat ls).
Proof. intros H Hk. rewrite (concat_split ls g l H), !app_length. unfold offs. lia. Qed.

Lemma integral_lookup acc l g : g <= length l -> integral acc l !! g = Some (acc + sum_list (take g l)).
Proof.
  revert acc g. induction l as [|n l IH]; intros acc g Hg; cbn [length] in Hg.
  - assert (g = 0) as -> by lia. cbn. f_equal. lia.
  - destruct g as [|g]; [cbn; f_equal; lia|].
    change (integral (acc + n) l !! g = Some (acc + (n + sum_list (take g l)))). rewrite IH by lia. f_equal. lia.
Qed.
Lemma written_some l : written (Some <$> l) = Some l.
Proof. induction l as [|x l IH]; auto. cbn [fmap list_fmap written]. change (list_fmap _ _ Some l) with (Some <$> l). by rewrite IH. Qed.

(* ---------- scattering ---------- *)
Section order.
Context (s : rst) (vis : list rref).
Definition lists : list (list rref) := (fun g => List.filter (unk s g) vis) <$> seq 0 256.
Definition sorted_cands : list rref := concat lists.

Lemma lists_lookup g : g < 256 -> lists !! g = Some (List.filter (unk s g) vis).
Proof. intros Hg. unfold lists. rewrite list_lookup_fmap, lookup_seq_lt by lia. done. Qed.
Lemma lists_length : length lists = 256.
Proof. unfold lists. by rewrite fmap_length, seq_length. Qed.

Context (Hdom : forall x, x ∈ vis -> is_Some (sget s x)).
Context (Hbyte : forall x a, sget s x = Some a -> g_gray a <= 255).
Notation offs := (offs lists).

Lemma offs_sum g : g <= 256 -> offs g = sum_list (take g (counts s vis)).
Proof.
  clear. induction g as [|g IH]; intros Hg; [done|].
  rewrite (offs_S lists g (List.filter (unk s g) vis)) by (apply lists_lookup; lia). rewrite IH by lia.
  rewrite (take_S_r (counts s vis) g (length (List.filter (unk s g) vis))) by (apply counts_lookup; lia).
  rewrite list_numbers.sum_list_with_app. cbn. lia.
Qed.

Definition pinv (pre : list rref) (cap : nat) (out : list (option rref)) (starts : list nat) : Prop :=
  length out = cap /\ length starts = 257 /\
  forall g, g < 256 -> starts !! g = Some (offs g + length (List.filter (unk s g) pre)) /\
    forall k x, List.filter (unk s g) pre !! k = Some x -> out !! (offs g + k) = Some (Some x).

Lemma filter_prefix g pre x suf : vis = pre ++ x :: suf -> unk s g x = true ->
  length (List.filter (unk s g) pre) < length (List.filter (unk s g) vis).
Proof. clear. intros -> H. rewrite List.filter_app, app_length. cbn [List.filter]. rewrite H. cbn [length]. lia. Qed.
Lemma filter_prefix_le g pre suf : vis = pre ++ suf ->
  length (List.filter (unk s g) pre) <= length (List.filter (unk s g) vis).
Proof. clear. intros ->. rewrite List.filter_app, app_length. lia. Qed.

Lemma scatter_step pre x suf cap out starts : vis = pre ++ x :: suf -> length sorted_cands <= cap ->
  pinv pre cap out starts -> exists out' starts', scatter s (out, starts) x = Some (out', starts') /\ pinv (pre ++ [x]) cap out' starts'.
Proof.
  intros Ev Hcap (P1 & P2 & P3). destruct (Hdom x) as [a Ha]. { rewrite Ev, elem_of_app, elem_of_cons. auto. }
  unfold scatter. rewrite Ha. destruct (Nat.eqb_spec (g_flag a) 0) as [Hf|Hf].
  - pose proof (Hbyte x a Ha) as Hg. assert (g_gray a < 256) as Hg' by lia. destruct (P3 _ Hg') as [-> P3a].
    assert (unk s (g_gray a) x = true) as Hu by (unfold unk; by rewrite Ha, Hf, !Nat.eqb_refl).
    pose proof (filter_prefix _ _ _ _ Ev Hu) as Hlt.
    pose proof (offs_le lists (g_gray a) _ _ (lists_lookup _ Hg') Hlt) as Hpos. fold sorted_cands in Hpos.
    destruct (Nat.ltb_spec (offs (g_gray a) + length (List.filter (unk s (g_gray a)) pre)) (length out)); [|lia].
    eexists _, _. split; [reflexivity|]. split; [by rewrite insert_length|]. split; [by rewrite insert_length|].
    intros g Hgg. destruct (P3 g Hgg) as [Q1 Q2]. rewrite List.filter_app. cbn [List.filter].
    destruct (decide (g = g_gray a)) as [->|Hne].
    + rewrite Hu, app_length. cbn [length]. split; [rewrite list_lookup_insert by lia; f_equal; lia|].
      intros k y Hk. destruct (decide (k < length (List.filter (unk s (g_gray a)) pre))) as [Hk'|Hk'].
      * rewrite lookup_app_l in Hk by auto. rewrite list_lookup_insert_ne by lia. by apply Q2.
      * rewrite lookup_app_r in Hk by lia. pose proof (lookup_lt_Some _ _ _ Hk) as Hk2. cbn [length] in Hk2.
        replace (k - length (List.filter (unk s (g_gray a)) pre)) with 0 in Hk by lia. injection Hk as <-.
        replace k with (length (List.filter (unk s (g_gray a)) pre)) by lia. apply list_lookup_insert. auto.
    + assert (unk s g x = false) as Hu'. { unfold unk. rewrite Ha. destruct (Nat.eqb_spec (g_gray a) g); [congruence|]. apply andb_false_r. }
      rewrite Hu', app_nil_r. rewrite list_lookup_insert_ne by auto. split; auto. intros k y Hk.
      rewrite list_lookup_insert_ne; [by apply Q2|].
      pose proof (lookup_lt_Some _ _ _ Hk). pose proof (filter_prefix_le g pre (x :: suf) Ev).
      apply (offs_disjoint lists _ _ _ _ _ _ (lists_lookup _ Hg') (lists_lookup _ Hgg)); auto. lia.
  - exists out, starts. split; auto. split; auto. split; auto. intros g Hgg. rewrite List.filter_app. cbn [List.filter].
    assert (unk s g x = false) as ->. { unfold unk. rewrite Ha. by destruct (Nat.eqb_spec (g_flag a) 0). }
    rewrite app_nil_r. by apply P3.
Qed.

Lemma scatter_ok cap : length sorted_cands <= cap ->
  exists out starts, each (scatter s) vis (replicate cap None, integral 0 (take 256 (counts s vis))) = Some (out, starts) /\
    take (length sorted_cands) out = Some <$> sorted_cands.
Proof.
  intros Hcap. destruct (each_inv (scatter s) vis (fun pre t => pinv pre cap (fst t) (snd t))
    (replicate cap None, integral 0 (take 256 (counts s vis)))) as ([out starts] & E & P1 & P2 & P3).
  - cbn [fst snd]. split; [apply replicate_length|].
    assert (length (take 256 (counts s vis)) = 256) as Hl by (rewrite take_length, counts_length; lia). split.
    + assert (forall acc l, length (integral acc l) = S (length l)) as Hil.
      { clear. intros acc l. revert acc. induction l; intros; cbn; auto. }
      rewrite Hil, Hl. done.
    + intros g Hg. rewrite integral_lookup by lia. rewrite take_take, Nat.min_l by lia. rewrite offs_sum by lia.
      split; [cbn; f_equal; lia|]. intros k x Hk. cbn [List.filter] in Hk. by rewrite lookup_nil in Hk.
  - intros pre x suf [out starts] Ev HP. cbn [fst snd] in HP.
    destruct (scatter_step pre x suf cap out starts Ev Hcap HP) as (out' & starts' & ? & ?). exists (out', starts'). auto.
  - exists out, starts. split; auto. cbn [fst snd] in *. apply list_eq. intros i. rewrite list_lookup_fmap.
    destruct (decide (i < length sorted_cands)) as [Hi|Hi].
    + rewrite lookup_take by auto. destruct (concat_index lists i Hi) as (g & l & k & Hg & Hk & ->).
      pose proof (lookup_lt_Some _ _ _ Hg) as Hg'. rewrite lists_length in Hg'. rewrite (lists_lookup g Hg') in Hg. injection Hg as <-.
      destruct (P3 g Hg') as [_ Q]. destruct (lookup_lt_is_Some_2 _ _ Hk) as [x Hx]. rewrite (Q k x Hx).
      unfold sorted_cands. rewrite (concat_lookup lists g _ k (lists_lookup g Hg') Hk), Hx. done.
    + rewrite lookup_ge_None_2, lookup_ge_None_2; [done|lia|]. rewrite take_length. lia.
Qed.

Lemma total_ok : sum_list (counts s vis) = length sorted_cands.
Proof.
  assert (length sorted_cands = offs 256) as ->. { unfold sorted_cands, RecogOrder.offs. by rewrite take_ge by (by rewrite lists_length). }
  rewrite offs_sum by lia. rewrite <-(take_drop 256 (counts s vis)) at 1. rewrite list_numbers.sum_list_with_app.
  assert (drop 256 (counts s vis) = [length (List.filter (unk s 256) vis)]) as ->.
  { apply list_eq. intros i. rewrite lookup_drop. destruct i as [|i]; [by rewrite counts_lookup by lia|].
    rewrite lookup_ge_None_2; [done|]. rewrite counts_length. lia. }
  assert (List.filter (unk s 256) vis = []) as ->; [|generalize (sum_list (take 256 (counts s vis))); intros n; cbn; lia].
  rewrite (filter_same (fun _ => false)); [clear; by induction vis|]. intros y Hy. unfold unk. destruct (sget s y) as [a|] eqn:E; auto.
  pose proof (Hbyte y a E). destruct (Nat.eqb_spec (g_gray a) 256); [lia|]. apply andb_false_r.
Qed.
Lemma total4_ok : sum_list (take 256 (counts s vis)) = length sorted_cands.
Proof.
  assert (length sorted_cands = offs 256) as ->. { unfold sorted_cands, RecogOrder.offs. by rewrite take_ge by (by rewrite lists_length). }
  by rewrite offs_sum by lia.
Qed.

Lemma order_ok b : all_refs (s_F s) = vis -> (N.of_nat (length sorted_cands) * 5 < 2 ^ 32)%N ->
  order_regions s b (counts s vis) (length sorted_cands) = Some (sorted_cands, size_buffer b (length sorted_cands)).
Proof.
  intros Hall Ht. unfold order_regions. rewrite Hall. cbn zeta.
  destruct (scatter_ok (cb_cap (size_buffer b (length sorted_cands)))) as (out & starts & -> & E).
  { by apply size_buffer_ok. }
  rewrite E, written_some, Nat.eqb_refl. done.
Qed.
End order.

(* ---------- what the sorted list is ---------- *)
Definition rlt (x y : rref) : Prop := fst x < fst y \/ (fst x = fst y /\ snd x < snd y).
Lemma vis_sorted i k : StronglySorted rlt (vis i k).
Proof.
  unfold vis. generalize 0 at 1. induction k as [|k IH]; intros b; cbn; constructor; auto.
  apply Forall_forall. intros x Hx. change (x ∈ pair i <$> seq (S b) k) in Hx.
  apply elem_of_list_fmap in Hx as (j & -> & Hj%elem_of_seq). right. cbn. lia.
Qed.
Lemma sorted_app {A} (R : A -> A -> Prop) l k : StronglySorted R l -> StronglySorted R k ->
  (forall x y, x ∈ l -> y ∈ k -> R x y) -> StronglySorted R (l ++ k).
Proof.
  intros Hl Hk HR. induction Hl as [|x l Hl IH Hx]; auto. cbn. constructor.
  - apply IH. intros u v Hu Hv. apply HR; auto. by apply elem_of_list_further.
  - apply Forall_app. split; auto. apply Forall_forall. intros y Hy. apply HR; auto. by apply elem_of_list_here.
Qed.
Lemma sorted_filter {A} (R : A -> A -> Prop) f l : StronglySorted R l -> StronglySorted R (List.filter f l).
Proof.
  induction 1 as [|x l Hl IH Hx]; cbn [List.filter]; [constructor|]. destruct (f x); auto. constructor; auto.
  rewrite Forall_forall in Hx |- *. intros y Hy. apply Hx. apply elem_of_list_In in Hy. apply filter_In in Hy as [Hy _].
  by apply elem_of_list_In.
Qed.
Lemma allvis_sorted F0 : StronglySorted rlt (allvis F0).
Proof.
  unfold allvis. generalize 0 at 1. generalize (length F0). intros n. induction n as [|n IH]; intros b; cbn; [constructor|].
  apply sorted_app; auto; [apply vis_sorted|]. intros x y [Hx _]%elem_vis Hy.
  apply elem_of_list_In, in_flat_map in Hy as (k & Hk%in_seq & Hk2). apply elem_of_list_In, elem_vis in Hk2 as [? _].
  left. lia.
Qed.
Lemma cands_sorted s l : StronglySorted rlt l ->
  StronglySorted (fun x y => exists a b, sget s x = Some a /\ sget s y = Some b /\
    (g_gray a < g_gray b \/ (g_gray a = g_gray b /\ rlt x y))) (sorted_cands s l).
Proof.
  intros Hl. unfold sorted_cands, lists. generalize 256. intros n. generalize 0. induction n as [|n IH]; intros g; cbn [seq fmap list_fmap concat]; [constructor|].
  assert (forall h x, x ∈ List.filter (unk s h) l -> exists a, sget s x = Some a /\ g_gray a = h) as Hin.
  { intros h x Hx. apply elem_of_list_In, filter_In in Hx as [_ Hx]. unfold unk in Hx. destruct (sget s x) as [a|]; [|done].
    apply andb_true_iff in Hx as [_ Hx%Nat.eqb_eq]. eauto. }
  apply sorted_app; [|apply IH|].
  - pose proof (sorted_filter rlt (unk s g) l Hl) as Hs. pose proof (Hin g) as Hg.
    induction Hs as [|x k Hk IHk Hx]; constructor.
    + apply IHk. intros y Hy. apply Hg. by apply elem_of_list_further.
    + rewrite Forall_forall in Hx |- *. intros y Hy. destruct (Hg x) as (a & ? & ?); [by apply elem_of_list_here|].
      destruct (Hg y) as (b & ? & ?); [by apply elem_of_list_further|]. exists a, b. split; auto. split; auto. right.
      split; [congruence|auto].
  - intros x y Hx Hy. destruct (Hin g x Hx) as (a & Ha & Hga). apply elem_of_list_In, in_concat in Hy as (k & Hk & Hy).
    apply elem_of_list_In, elem_of_list_fmap in Hk as (h & -> & Hh%elem_of_seq). apply elem_of_list_In in Hy.
    destruct (Hin h y Hy) as (b & Hb & Hgb). exists a, b. split; auto. split; auto. left. lia.
Qed.
Lemma elem_cands s l x : (forall x a, sget s x = Some a -> g_gray a <= 255) ->
  x ∈ sorted_cands s l <-> x ∈ l /\ exists a, sget s x = Some a /\ g_flag a = 0.
Proof.
  intros Hb. unfold sorted_cands, lists. rewrite elem_of_list_In, in_concat. split.
  - intros (k & Hk & Hx). apply elem_of_list_In, elem_of_list_fmap in Hk as (g & -> & _). apply filter_In in Hx as [Hx Hu].
    split; [by apply elem_of_list_In|]. unfold unk in Hu. destruct (sget s x) as [a|]; [|done]. exists a. split; auto.
    by apply andb_true_iff in Hu as [Hu%Nat.eqb_eq _].
  - intros (Hx & a & Ha & Hf). exists (List.filter (unk s (g_gray a)) l). split.
    + apply elem_of_list_In, elem_of_list_fmap. exists (g_gray a). split; auto. apply elem_of_seq. specialize (Hb x a Ha). lia.
    + apply filter_In. split; [by apply elem_of_list_In|]. unfold unk. by rewrite Ha, Hf, !Nat.eqb_refl.
Qed.
Lemma cands_NoDup s l : StronglySorted rlt l -> NoDup (sorted_cands s l).
Proof.
  intros Hl. pose proof (cands_sorted s l Hl) as Hs. induction Hs as [|x k Hk IH Hx]; constructor; auto.
  intros Hin. rewrite Forall_forall in Hx. destruct (Hx x Hin) as (a & b & Ha & Hb & [?|[_ Hlt]]).
  - assert (a = b) by congruence. subst. lia.
  - unfold rlt in Hlt. lia.
Qed.
