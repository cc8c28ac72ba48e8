(* The parallel workers of recognition compute the same result under every schedule. *)
From stdpp Require Import sorting relations functions list.
From Coq Require Import NArith ZArith SpecFloat.
From Verif Require Import Spec TreeSpec TreeFacts JoinMath FloodModel ConnectModel ConnectProof FloatModel FloatFacts
  RecogModel RecogSpec RecogStatic.
Local Open Scope nat_scope.

(* ---------- counting candidates ---------- *)
Definition unk (s : rst) (g : nat) (z : rref) : bool :=
  match sget s z with Some a => (g_flag a =? 0) && (g_gray a =? g) | None => false end.
Definition counts (s : rst) (vis : list rref) : list nat :=
  (fun g => length (List.filter (unk s g) vis)) <$> seq 0 257.

Lemma counts_lookup s vis g : g < 257 -> counts s vis !! g = Some (length (List.filter (unk s g) vis)).
Proof. intros Hg. unfold counts. rewrite list_lookup_fmap, lookup_seq_lt by lia. done. Qed.
Lemma counts_length s vis : length (counts s vis) = 257.
Proof. unfold counts. by rewrite fmap_length, seq_length. Qed.

Lemma filter_flip (f f' : rref -> bool) l z : NoDup l -> z ∈ l -> f z = true -> f' z = false ->
  (forall y, y <> z -> f' y = f y) -> length (List.filter f l) = S (length (List.filter f' l)).
Proof.
  induction l as [|y l IH]; intros Hnd Hz Hf Hf' He; [by apply elem_of_nil in Hz|].
  apply NoDup_cons in Hnd as [Hy Hnd]. apply elem_of_cons in Hz as [<-|Hz].
  - cbn [List.filter]. rewrite Hf, Hf'. cbn [length]. f_equal. f_equal.
    apply filter_ext_in. intros y' Hy'. symmetry. apply He. intros ->. apply Hy. by apply elem_of_list_In.
  - cbn [List.filter]. rewrite (He y); [|by intros ->]. destruct (f y); cbn [length]; rewrite IH; auto.
Qed.
Lemma filter_same (f f' : rref -> bool) l : (forall y, y ∈ l -> f' y = f y) -> List.filter f' l = List.filter f l.
Proof. intros He. apply filter_ext_in. intros y Hy. apply He. by apply elem_of_list_In. Qed.

Lemma counts_app s vis x : counts s (vis ++ [x]) =
  match sget s x with
  | Some a => if (g_flag a =? 0) && (g_gray a <=? 256) then lvl_inc (counts s vis) (g_gray a) else counts s vis
  | None => counts s vis
  end.
Proof.
  apply list_eq_same_length with (n := 257); [|by rewrite counts_length|].
  { destruct (sget s x); [|by rewrite counts_length]. destruct (_ && _); [|by rewrite counts_length].
    unfold lvl_inc. by rewrite alter_length, counts_length. }
  intros g u w Hg H1 H2. rewrite counts_lookup in H1 by lia. injection H1 as <-.
  rewrite List.filter_app, app_length. cbn [List.filter]. unfold unk at 2.
  destruct (sget s x) as [a|] eqn:Ea.
  - destruct (Nat.eqb_spec (g_flag a) 0); cbn [andb] in *.
    + destruct (Nat.leb_spec (g_gray a) 256).
      * destruct (Nat.eqb_spec (g_gray a) g) as [<-|Hne]; cbn [length].
        -- unfold lvl_inc in H2. rewrite list_lookup_alter, counts_lookup in H2 by lia. injection H2 as <-. lia.
        -- unfold lvl_inc in H2. rewrite list_lookup_alter_ne, counts_lookup in H2 by lia. injection H2 as <-. lia.
      * rewrite counts_lookup in H2 by lia. injection H2 as <-. destruct (Nat.eqb_spec (g_gray a) g); [lia|]. cbn. lia.
    + rewrite counts_lookup in H2 by lia. injection H2 as <-. cbn. lia.
  - rewrite counts_lookup in H2 by lia. injection H2 as <-. cbn. lia.
Qed.
Lemma counts_ext s s' vis : (forall z, z ∈ vis -> sget s' z = sget s z) -> counts s' vis = counts s vis.
Proof.
  intros He. unfold counts. apply list_fmap_ext. intros g ? _. f_equal. apply filter_same.
  intros y Hy. unfold unk. by rewrite He.
Qed.

Lemma sget_put_flag s z c f y : sget s z = Some c ->
  sget (put_flag s z c f) y = if decide (y = z) then Some (set_flag c f) else sget s y.
Proof.
  intros Hc. unfold sget, put_flag. cbn [s_F]. rewrite fget_fset. unfold sget in Hc. rewrite Hc.
  by destruct (decide (y = z)) as [->|].
Qed.

(* flagging a candidate that is counted *)
Lemma dec_ok s z c vis : sget s z = Some c -> g_flag c = 0 -> g_gray c <= 256 -> NoDup vis -> z ∈ vis ->
  lvl_dec (counts s vis) (g_gray c) = Some (counts (put_flag s z c 1) vis).
Proof.
  intros Hc Hf Hg Hnd Hz. unfold lvl_dec. rewrite counts_lookup by lia.
  assert (forall y, sget (put_flag s z c 1) y = if decide (y = z) then Some (set_flag c 1) else sget s y) as Hs
    by (intros; by apply sget_put_flag).
  rewrite (filter_flip (unk s (g_gray c)) (unk (put_flag s z c 1) (g_gray c)) vis z); auto.
  - f_equal. apply list_eq_same_length with (n := 257); [by rewrite counts_length|by rewrite insert_length, counts_length|].
    intros g u w Hg' H1 H2. rewrite counts_lookup in H2 by lia. injection H2 as <-.
    destruct (decide (g = g_gray c)) as [->|Hne].
    + rewrite list_lookup_insert in H1; [by injection H1|]. rewrite counts_length. lia.
    + rewrite list_lookup_insert_ne, counts_lookup in H1 by lia. injection H1 as <-. f_equal. apply filter_same.
      intros y _. unfold unk. rewrite Hs. destruct (decide (y = z)) as [->|]; auto. rewrite Hc. cbn [set_flag g_gray].
      destruct (Nat.eqb_spec (g_gray c) g); [lia|]. by rewrite !andb_false_r.
  - unfold unk. rewrite Hc, Hf. by rewrite !Nat.eqb_refl.
  - unfold unk. rewrite Hs, decide_True by auto. done.
  - intros y Hy. unfold unk. by rewrite Hs, decide_False.
Qed.
Lemma counts_put_flag_out s z c vis : sget s z = Some c -> z ∉ vis -> counts (put_flag s z c 1) vis = counts s vis.
Proof.
  intros Hc Hz. apply counts_ext. intros y Hy. rewrite (sget_put_flag s z c 1 y Hc).
  by destruct (decide (y = z)) as [->|].
Qed.

Lemma par_kill_ok s vis z c : sget s z = Some c -> g_gray c <= 256 -> NoDup vis ->
  (g_flag c = 0 -> (s_calc s z = true <-> z ∈ vis)) ->
  exists s', par_kill s (counts s vis) z = Some (s', counts s' vis) /\
    s' = if g_flag c =? 0 then put_flag s z c 1 else s.
Proof.
  intros Hc Hg Hnd Hcalc. unfold par_kill. rewrite Hc. destruct (Nat.eqb_spec (g_flag c) 0) as [Hf|Hf].
  - specialize (Hcalc Hf). destruct (s_calc s z) eqn:Ecalc.
    + rewrite (dec_ok s z c vis) by (auto; by apply Hcalc). eauto.
    + exists (put_flag s z c 1). split; auto. rewrite counts_put_flag_out; auto. intros Hin. by apply Hcalc in Hin.
  - eauto.
Qed.

Section workers.
Context (F0 : forest) (H0 : rstart F0) (P : rparam).
Context (Hd : (- 2 ^ 31 <= p_delta P /\ p_delta P + 255 < 2 ^ 31)%Z).
Notation RP := (RP F0). Notation rp := (rp F0). Notation dp := (dp F0). Notation top := (top F0).
Notation gray0 := (gray0 F0). Notation size0 := (size0 F0). Notation live0 := (live0 F0).
Notation VAR := (VAR F0 P). Notation BASE := (BASE F0 P). Notation has_var := (has_var F0 P).

Lemma add_z_ok g : g <= 255 -> add_z (Z.of_nat g) (p_delta P) = Some (Z.of_nat g + p_delta P)%Z.
Proof.
  intros Hg. unfold add_z. cbn zeta. destruct Hd as [Hd1 Hd2].
  destruct (Z.leb_spec (- 2 ^ 31) (Z.of_nat g + p_delta P)); [|lia].
  destruct (Z.ltb_spec (Z.of_nat g + p_delta P) (2 ^ 31)); [done|lia].
Qed.

(* ---------- how the shared state relates to the start ---------- *)
Definition same1 (x : rref) (a0 a : greg) : Prop :=
  g_gray a = g_gray a0 /\ g_size a = g_size a0 /\ g_patch a = g_patch a0 /\
  (g_flag a0 = 3 -> a = a0) /\
  (g_flag a0 <> 3 -> g_flag a <> 3 /\ (g_par a = g_par a0 \/ g_par a = RP x)).
Record sim (F : forest) : Prop := {
  sm_shape : length <$> F = length <$> F0;
  sm_reg : forall x a0, fget F0 x = Some a0 -> exists a, fget F x = Some a /\ same1 x a0 a;
  sm_idx : forall x a0 a, fget F0 x = Some a0 -> fget F x = Some a -> g_idx a = g_idx a0
}.

Lemma sim_start : sim F0.
Proof.
  constructor; auto.
  - intros x a0 Ha. exists a0. split; auto. repeat split; auto.
  - intros x a0 a H1 H2. congruence.
Qed.

Lemma shape_dom F x a : length <$> F = length <$> F0 -> fget F x = Some a -> exists a0, fget F0 x = Some a0.
Proof.
  clear. intros Hs Ha. unfold fget in *. destruct x as [k i]; cbn [fst snd] in *.
  destruct (F !! k) as [l|] eqn:E; [|done].
  assert ((length <$> F) !! k = Some (length l)) as H1 by (by rewrite list_lookup_fmap, E).
  rewrite Hs, list_lookup_fmap in H1. destruct (F0 !! k) as [l0|]; [|done]. injection H1 as H1.
  apply lookup_lt_Some in Ha. destruct (l0 !! i) as [a0|] eqn:E0; [eauto|]. apply lookup_ge_None in E0. lia.
Qed.

Lemma sim_get F x a : sim F -> fget F x = Some a -> exists a0, fget F0 x = Some a0 /\ same1 x a0 a.
Proof.
  intros HS Ha. destruct (shape_dom F x a (sm_shape _ HS) Ha) as [a0 Ha0].
  destruct (sm_reg _ HS x a0 Ha0) as (a' & Ha' & Hsame). assert (a' = a) as -> by congruence. eauto.
Qed.
Lemma sim_live F x : sim F -> live0 x -> exists a, fget F x = Some a /\ g_flag a <> 3 /\
  g_gray a = gray0 x /\ g_size a = size0 x /\ g_patch a = fst x /\ stored F0 (g_par a) /\ rp (g_par a) = RP x /\
  (g_par a = None <-> RP x = None).
Proof.
  intros HS (a0 & Ha0 & Hf). destruct (sm_reg _ HS x a0 Ha0) as (a & Ha & S1 & S2 & S3 & _ & S5).
  destruct (S5 Hf) as [S6 S7]. exists a. split; auto. split; auto.
  unfold RecogStatic.gray0, RecogStatic.size0. rewrite Ha0. split; auto. split; auto. split.
  { destruct x as [k i]. destruct (rs_reg _ H0 k i a0 Ha0) as (Hp & _). cbn [fst]. congruence. }
  pose proof (par_stored F0 H0 x a0 Ha0) as Hst.
  assert (RP x = rp (g_par a0)) as ERP by (unfold RecogStatic.RP; by rewrite Ha0).
  destruct S7 as [->| ->].
  - split; auto. split; auto. rewrite ERP. symmetry. by apply rp_eq_none.
  - rewrite ERP. split; [by apply rp_stored|]. split; [|done].
    destruct (g_par a0) as [t|] eqn:Ep; [|done]. destruct (Hst t eq_refl) as [c Hc].
    destruct (rp_some F0 H0 t c Hc) as (y & b & -> & Hb & Hfb & _). by eapply rp_live.
Qed.
Lemma sim_dead F x a0 : sim F -> fget F0 x = Some a0 -> g_flag a0 = 3 -> fget F x = Some a0.
Proof.
  intros HS Ha0 Hf. destruct (sm_reg _ HS x a0 Ha0) as (a & Ha & _ & _ & _ & S4 & _). by rewrite Ha, (S4 Hf).
Qed.

(* changing a surviving region *)
Lemma sim_fset F x a b : sim F -> live0 x -> fget F x = Some a ->
  g_gray b = g_gray a -> g_size b = g_size a -> g_patch b = g_patch a -> g_idx b = g_idx a -> g_flag b <> 3 ->
  (g_par b = g_par a \/ g_par b = RP x) -> sim (fset F x b).
Proof.
  intros HS (c0 & Hc0 & Hlf) Ha B1 B2 B3 Bi B4 B5. constructor.
  - rewrite fset_shape. apply HS.
  - intros y a0 Ha0. rewrite fget_fset. destruct (sm_reg _ HS y a0 Ha0) as (a' & Ha' & Hsame).
    destruct (decide (y = x)) as [->|].
    + rewrite Ha. exists b. split; auto. assert (a' = a) as -> by congruence. assert (c0 = a0) as -> by congruence.
      destruct Hsame as (S1 & S2 & S3 & S4 & S5). split; [congruence|]. split; [congruence|]. split; [congruence|].
      split; [done|]. intros _. split; auto. destruct (S5 Hlf) as [_ ?]. destruct B5 as [->| ->]; auto.
    + eauto.
  - intros y a0 a1 Ha0 Ha1. rewrite fget_fset in Ha1. destruct (decide (y = x)) as [->|]; [|by eapply (sm_idx _ HS)].
    rewrite Ha in Ha1. injection Ha1 as <-. rewrite Bi. by eapply (sm_idx _ HS).
Qed.

(* ---------- suppression as a function of the tree ---------- *)
Definition lv (x : rref) : bool := match fget F0 x with Some a => negb (g_flag a =? 3) | None => false end.
Lemma lv_live x : lv x = true <-> live0 x.
Proof.
  unfold lv, RecogStatic.live0. split.
  - destruct (fget F0 x) as [a|]; [|done]. intros H%negb_true_iff%Nat.eqb_neq. eauto.
  - intros (a & -> & H). by apply negb_true_iff, Nat.eqb_neq.
Qed.
Definition vic (x : rref) : option rref :=
  match RP x with
  | None => None
  | Some y =>
      if lv x && fge (p_nms P) fzero && has_var x && has_var y && (gray0 y =? gray0 x + 1) then
        if fgt (var_diff (VAR y) (VAR x)) (f64_of_f32 (p_nms P)) then Some y
        else if fgt (SFopp (var_diff (VAR y) (VAR x))) (f64_of_f32 (p_nms P)) then Some x else None
      else None
  end.
Definition kills (xs : list rref) (z : rref) : bool := existsb (fun x => bool_decide (vic x = Some z)) xs.
Definition FLAG (xs : list rref) (z : rref) : nat := if BASE z && negb (kills xs z) then 0 else 1.
Definition inner (i : nat) (x : rref) : bool := match RP x with Some y => fst y =? i | None => false end.

Lemma kills_app xs ys z : kills (xs ++ ys) z = kills xs z || kills ys z.
Proof. apply existsb_app. Qed.
Lemma kills_iff xs z : kills xs z = true <-> exists x, x ∈ xs /\ vic x = Some z.
Proof.
  unfold kills. rewrite existsb_exists. split.
  - intros (x & Hx & Hb). exists x. rewrite elem_of_list_In. split; auto. by apply bool_decide_eq_true in Hb.
  - intros (x & Hx & Hb). exists x. rewrite elem_of_list_In in Hx. split; auto. by apply bool_decide_eq_true.
Qed.
Lemma vic_cases x z : vic x = Some z -> z = x \/ RP x = Some z.
Proof.
  unfold vic. destruct (RP x) as [y|]; [|done]. destruct (_ && _); [|done].
  destruct (fgt _ _); [intros [= <-]; auto|]. destruct (fgt _ _); [intros [= <-]; auto|done].
Qed.

(* variations are defined exactly where they are non-negative *)
Context (HVAR : forall x, live0 x -> fge (VAR x) fzero = has_var x).
Lemma var_neg x : live0 x -> fgt fzero (VAR x) = negb (has_var x).
Proof.
  intros Hx. rewrite <-(HVAR x Hx). unfold RecogStatic.has_var, RecogStatic.VAR in *.
  specialize (HVAR x Hx). unfold RecogStatic.VAR, RecogStatic.has_var in HVAR. cbn zeta in *.
  destruct (_ || _).
  - rewrite HVAR. cbn [negb]. destruct (f32_growth _ _) as [[]|[]| |[]]; done.
  - done.
Qed.

Lemma nms_nan : fge (p_nms P) fzero = false -> fgt fzero (p_nms P) = false -> p_nms P = S754_nan.
Proof. unfold fge, fgt, SFleb, SFltb, SFcompare, fzero. destruct (p_nms P) as [[]|[]| |[]]; done. Qed.

(* ---------- what the workers guarantee about their own regions ---------- *)
Definition vis (i k : nat) : list rref := pair i <$> seq 0 k.
Lemma elem_vis i k x : x ∈ vis i k <-> fst x = i /\ snd x < k.
Proof.
  unfold vis. rewrite elem_of_list_fmap. split.
  - intros (j & -> & Hj%elem_of_seq). cbn. lia.
  - destruct x as [u j]; cbn. intros [-> ?]. exists j. split; auto. apply elem_of_seq. lia.
Qed.
Lemma vis_NoDup i k : NoDup (vis i k).
Proof. unfold vis. apply NoDup_fmap; [by intros ?? [=]|]. apply NoDup_seq. Qed.
Lemma vis_S i k : vis i (S k) = vis i k ++ [(i, k)].
Proof. unfold vis. rewrite seq_S, fmap_app. done. Qed.

Definition parset (s : rst) (x : rref) : Prop := exists a, sget s x = Some a /\ g_par a = RP x.
Definition done1 (s : rst) (x : rref) : Prop :=
  (exists a, sget s x = Some a /\ g_par a = RP x /\ g_flag a = if BASE x then 0 else 1) /\ s_var s x = VAR x.
Definition base (i k : nat) (s : rst) (w : wst) : Prop :=
  (forall j, live0 (i, j) -> j < k -> done1 s (i, j)) /\
  (forall j, live0 (i, j) -> k <= j -> exists a, sget s (i, j) = Some a /\ g_flag a = 0) /\
  (forall j, s_calc s (i, j) = false) /\ w_lvl w = lvl0 /\ w_heap w = [].

(* loop 2 after k regions *)
Definition inn (i k : nat) : list rref := List.filter (inner i) (vis i k).
Definition regsok (dom : rref -> Prop) (xs : list rref) (s : rst) : Prop :=
  forall z, live0 z -> dom z -> exists a, sget s z = Some a /\ g_par a = RP z /\
    s_var s z = VAR z /\ g_flag a = FLAG xs z.
Definition calcok (dom : rref -> Prop) (vs : list rref) (s : rst) : Prop :=
  forall z a, live0 z -> dom z -> sget s z = Some a -> g_flag a = 0 -> (s_calc s z = true <-> z ∈ vs).
Definition own (i : nat) (x : rref) : Prop := fst x = i.
Record loop2 (i k : nat) (s : rst) (w : wst) : Prop := {
  l2_reg : regsok (own i) (inn i k) s;
  l2_calc : calcok (own i) (vis i k) s;
  l2_lvl : w_lvl w = counts s (vis i k);
  l2_heap : forall x, x ∈ w_heap w -> x ∈ vis i k /\ live0 x /\ inner i x = false /\
    exists y, RP x = Some y /\ gray0 y = gray0 x + 1;
  l2_all : forall x y, x ∈ vis i k -> live0 x -> RP x = Some y -> inner i x = false -> gray0 y = gray0 x + 1 ->
    x ∈ w_heap w \/ (FLAG (inn i k) x = 1 /\ BASE y = false);
  l2_len : length (w_heap w) <= k
}.

Definition len0 (i : nat) : nat := match F0 !! i with Some l => length l | None => 0 end.

Definition tinv (four : bool) (i : nat) (s : rst) (w : wst) : Prop :=
  match w_pc w with
  | PNext k => base i k s w /\ k <= len0 i
  | PChase k thr r p set =>
      base i k s w /\ live0 (i, k) /\ thr = (Z.of_nat (gray0 (i, k)) + p_delta P)%Z /\ live0 r /\
      top thr r = top thr (i, k) /\ stored F0 p /\ rp p = RP r /\
      (set = true -> fst r = i) /\ (parset s (i, k) \/ (r = (i, k) /\ set = true))
  | PSet k thr r p set =>
      base i k s w /\ live0 (i, k) /\ thr = (Z.of_nat (gray0 (i, k)) + p_delta P)%Z /\ live0 r /\
      top thr r = top thr (i, k) /\ p = RP r /\
      (set = true -> fst r = i) /\ (parset s (i, k) \/ (r = (i, k) /\ set = true))
  | PTest k thr r p =>
      base i k s w /\ live0 (i, k) /\ thr = (Z.of_nat (gray0 (i, k)) + p_delta P)%Z /\ live0 r /\
      top thr r = top thr (i, k) /\ p = RP r /\ parset s (i, k)
  | PVar k thr r p =>
      base i k s w /\ live0 (i, k) /\ thr = (Z.of_nat (gray0 (i, k)) + p_delta P)%Z /\ live0 r /\
      r = top thr (i, k) /\ p = RP r /\ parset s (i, k)
  | PFlag k => base i k s w /\ live0 (i, k) /\ parset s (i, k) /\ s_var s (i, k) = VAR (i, k)
  | PNms k => four = true /\ k <= len0 i /\ loop2 i k s w
  | PDone => if four then loop2 i (len0 i) s w else base i (len0 i) s w
  end.

(* steps to go *)
Definition C3 : nat := 3 * nregs F0 + 9.
Definition msr (i : nat) (w : wst) : nat :=
  match w_pc w with
  | PNext k => (len0 i - k) * C3 + len0 i + 3
  | PChase k _ _ p _ => (len0 i - S k) * C3 + len0 i + 3 + 3 * dp p + 6
  | PSet k _ _ p _ => (len0 i - S k) * C3 + len0 i + 3 + 3 * dp p + 5
  | PTest k _ _ p => (len0 i - S k) * C3 + len0 i + 3 + 3 * dp p + 4
  | PVar k _ _ _ => (len0 i - S k) * C3 + len0 i + 3 + 3
  | PFlag k => (len0 i - S k) * C3 + len0 i + 3 + 2
  | PNms k => len0 i - k + 2
  | PDone => 0
  end.

(* two states that agree on the regions of partition i *)
Definition agree (i : nat) (s s' : rst) : Prop :=
  forall j, sget s' (i, j) = sget s (i, j) /\ s_var s' (i, j) = s_var s (i, j) /\ s_calc s' (i, j) = s_calc s (i, j).

Lemma base_agree i k s s' w : agree i s s' -> base i k s w -> base i k s' w.
Proof.
  intros HA (B1 & B2 & B3 & B4 & B5). split; [|split; [|split; [|split]]]; auto.
  - intros j Hl Hj. destruct (HA j) as (A1 & A2 & A3). destruct (B1 j Hl Hj) as [(a & ?) ?].
    split; [exists a; by rewrite A1|congruence].
  - intros j Hl Hj. destruct (HA j) as (A1 & A2 & A3). destruct (B2 j Hl Hj) as (a & ?). exists a. by rewrite A1.
  - intros j. destruct (HA j) as (A1 & A2 & A3). by rewrite A3.
Qed.
Lemma parset_agree i k s s' : agree i s s' -> parset s (i, k) -> parset s' (i, k).
Proof. intros HA (a & H1 & H2). destruct (HA k) as (A1 & _). exists a. by rewrite A1. Qed.
Lemma loop2_agree i k s s' w : agree i s s' -> loop2 i k s w -> loop2 i k s' w.
Proof.
  intros HA [L1 L1' L2 L3 L4 L5]. constructor; auto.
  - intros [u j] Hl Hu. cbn in Hu. destruct (HA j) as (A1 & A2 & A3). pose proof Hu as Hu'. unfold own in Hu; cbn in Hu.
    subst u. destruct (L1 (i, j) Hl Hu') as (a & ?). exists a. by rewrite A1, A2.
  - intros [u j] a Hl Hu. pose proof Hu as Hu'. unfold own in Hu; cbn in Hu. subst u. destruct (HA j) as (A1 & A2 & A3).
    rewrite A1, A3. by apply L1'.
  - rewrite L2. symmetry. apply counts_ext. intros [u j] [Hu _]%elem_vis. cbn in Hu. subst u. apply HA.
Qed.
Lemma tinv_agree four i s s' w : agree i s s' -> tinv four i s w -> tinv four i s' w.
Proof.
  intros HA. unfold tinv. pose proof (base_agree i) as HB. pose proof (parset_agree i) as HP.
  pose proof (loop2_agree i) as HL.
  destruct (w_pc w) as [k|k thr r p set|k thr r p set|k thr r p|k thr r p|k|k|].
  - intros [? ?]. eauto.
  - intros (? & ? & ? & ? & ? & ? & ? & ? & H9). repeat (split; eauto). destruct H9 as [?|?]; eauto.
  - intros (? & ? & ? & ? & ? & ? & ? & ?). repeat (split; eauto). destruct H7 as [?|?]; eauto.
  - intros (? & ? & ? & ? & ? & ? & ?). repeat (split; eauto).
  - intros (? & ? & ? & ? & ? & ? & ?). repeat (split; eauto).
  - intros (? & ? & ? & ?). repeat (split; eauto). destruct (HA k) as (_ & -> & _). done.
  - intros (? & ? & ?). repeat (split; eauto).
  - destruct four; eauto.
Qed.

(* ---------- effect of the writes ---------- *)
Lemma sget_put_par s r a t y : sget s r = Some a ->
  sget (put_par s r a t) y = if decide (y = r) then Some (set_par a t) else sget s y.
Proof.
  clear. intros Hc. unfold sget, put_par. cbn [s_F]. rewrite fget_fset. unfold sget in Hc. rewrite Hc.
  by destruct (decide (y = r)) as [->|].
Qed.
Lemma agree_put_par j s r a t : fst r <> j -> sget s r = Some a -> agree j s (put_par s r a t).
Proof.
  clear. intros Hne Ha u. split; [|done]. rewrite (sget_put_par s r a t _ Ha), decide_False; auto. by intros <-.
Qed.
Lemma agree_put_flag j s r a f : fst r <> j -> sget s r = Some a -> agree j s (put_flag s r a f).
Proof.
  clear. intros Hne Ha u. split; [|done]. rewrite (sget_put_flag s r a f _ Ha), decide_False; auto. by intros <-.
Qed.
Lemma agree_put_var j s r v : fst r <> j -> agree j s (put_var s r v).
Proof.
  clear. intros Hne u. split; [done|]. split; [|done]. unfold put_var. cbn [s_var].
  rewrite fn_lookup_insert_ne; auto. by intros ->.
Qed.
Lemma agree_put_calc j s r : fst r <> j -> agree j s (put_calc s r).
Proof.
  clear. intros Hne u. split; [done|]. split; [done|]. unfold put_calc. cbn [s_calc].
  rewrite fn_lookup_insert_ne; auto. by intros ->.
Qed.
Lemma agree_refl j s : agree j s s.
Proof. done. Qed.
Lemma agree_trans j s s' s'' : agree j s s' -> agree j s' s'' -> agree j s s''.
Proof. clear. intros H1 H2 u. destruct (H1 u) as (?&?&?), (H2 u) as (?&?&?). repeat split; congruence. Qed.

(* ---------- suppression steps ---------- *)
Lemma FLAG_01 xs z : FLAG xs z = 0 \/ FLAG xs z = 1.
Proof. unfold FLAG. destruct (_ && _); auto. Qed.
Lemma FLAG_app xs x z : FLAG (xs ++ [x]) z = if bool_decide (vic x = Some z) then 1 else FLAG xs z.
Proof.
  unfold FLAG. rewrite kills_app. cbn [kills existsb]. unfold kills at 2. cbn [existsb]. rewrite orb_false_r.
  case_bool_decide; [by rewrite orb_true_r, andb_false_r|by rewrite orb_false_r].
Qed.
Lemma FLAG_none xs x z : vic x = None -> FLAG (xs ++ [x]) z = FLAG xs z.
Proof. intros Hv. rewrite FLAG_app, Hv. done. Qed.

Lemma regs_kill dom vs xs s x z : sim (s_F s) -> regsok dom xs s -> calcok dom vs s -> NoDup vs ->
  live0 z -> dom z -> vic x = Some z ->
  exists s', par_kill s (counts s vs) z = Some (s', counts s' vs) /\ sim (s_F s') /\
    regsok dom (xs ++ [x]) s' /\ calcok dom vs s' /\
    (forall j, fst z <> j -> agree j s s').
Proof.
  intros HS HR HC Hnd Hz Hdz Hv. destruct (HR z Hz Hdz) as (c & Hc & Hcp & Hcv & Hcf).
  destruct (sim_live _ z HS Hz) as (c' & Hc' & Hf3 & Hgr & Hsz & Hpt & _). assert (c' = c) as -> by (unfold sget in Hc; congruence).
  assert (gray0 z <= 255) as Hg.
  { unfold RecogStatic.gray0. destruct z as [u v]. destruct (fget F0 (u, v)) as [a0|] eqn:E; [|lia].
    by destruct (rs_reg _ H0 u v a0 E) as (_ & ? & _). }
  destruct (par_kill_ok s vs z c) as (s' & Hk & Es'); auto; [lia|by apply HC|].
  exists s'. split; auto. destruct (Nat.eqb_spec (g_flag c) 0) as [H1|H1].
  - subst s'. split.
    { apply (sim_fset _ z c); auto. }
    split; [|split].
    + intros y Hy Hdy. rewrite (sget_put_flag s z c 1 y Hc). rewrite FLAG_app. cbn [put_flag s_var].
      destruct (decide (y = z)) as [->|Hne].
      * exists (set_flag c 1). rewrite bool_decide_true by auto. auto.
      * destruct (HR y Hy Hdy) as (b & Hb & Hbp & Hbv & Hbf). exists b. rewrite bool_decide_false; [auto|]. congruence.
    + intros y b Hy Hdy. rewrite (sget_put_flag s z c 1 y Hc). cbn [put_flag s_calc].
      destruct (decide (y = z)) as [->|Hne]; [by intros [= <-]|]. by apply HC.
    + intros j Hj. by apply agree_put_flag.
  - subst s'. split; auto. split; [|split; auto; intros; apply agree_refl].
    intros y Hy Hdy. destruct (HR y Hy Hdy) as (b & Hb & Hbp & Hbv & Hbf). exists b. repeat (split; auto).
    rewrite FLAG_app. case_bool_decide as E; auto. assert (y = z) as -> by congruence. assert (b = c) as -> by congruence.
    destruct (FLAG_01 xs z); lia.
Qed.
Lemma regs_none (dom : rref -> Prop) xs s x : (forall z, live0 z -> dom z -> FLAG (xs ++ [x]) z = FLAG xs z) ->
  regsok dom xs s -> regsok dom (xs ++ [x]) s.
Proof. intros He HR z Hz Hd'. destruct (HR z Hz Hd') as (b & ?). exists b. by rewrite He. Qed.

(* the pair x and its parent y *)
Lemma regs_pair dom vs xs s x y : sim (s_F s) -> regsok dom xs s -> calcok dom vs s -> NoDup vs ->
  live0 x -> dom x -> dom y -> RP x = Some y -> fgt fzero (p_nms P) = false ->
  has_var x = true -> has_var y = true -> gray0 y = gray0 x + 1 ->
  exists s', par_pair P s (counts s vs) x y = Some (s', counts s' vs) /\ sim (s_F s') /\
    regsok dom (xs ++ [x]) s' /\ calcok dom vs s' /\
    (forall j, fst x <> j -> fst y <> j -> agree j s s').
Proof.
  intros HS HR HC Hnd Hx Hdx Hdy E Hn Hvx Hvy Hg. destruct (live0_RP F0 H0 x y Hx E) as [Hy _].
  destruct (HR x Hx Hdx) as (a & Ha & Hap & Hav & Haf). destruct (HR y Hy Hdy) as (b & Hb & Hbp & Hbv & Hbf).
  unfold par_pair. rewrite Hav, Hbv.
  destruct (fge (p_nms P) fzero) eqn:En.
  - assert (vic x = if fgt (var_diff (VAR y) (VAR x)) (f64_of_f32 (p_nms P)) then Some y
        else if fgt (SFopp (var_diff (VAR y) (VAR x))) (f64_of_f32 (p_nms P)) then Some x else None) as Ev.
    { unfold vic. rewrite E, En, Hvx, Hvy, Hg, Nat.eqb_refl. by rewrite (proj2 (lv_live x) Hx). }
    destruct (fgt (var_diff _ _) _).
    + destruct (regs_kill dom vs xs s x y) as (s' & ? & ? & ? & ? & ?); auto. exists s'. auto 10.
    + destruct (fgt (SFopp _) _).
      * destruct (regs_kill dom vs xs s x x) as (s' & ? & ? & ? & ? & ?); auto. exists s'. auto 10.
      * exists s. split; auto. split; auto. split; [|split; auto; intros; apply agree_refl].
        apply regs_none; auto. intros. by apply FLAG_none.
  - rewrite (nms_nan En Hn). cbn [f64_of_f32]. assert (forall d, fgt d S754_nan = false) as Hnan by (by intros []).
    rewrite !Hnan. exists s. split; auto. split; auto. split; [|split; auto; intros; apply agree_refl].
    apply regs_none; auto. intros. apply FLAG_none. unfold vic. by rewrite E, En, andb_false_r.
Qed.

(* x is not a merged region, or is merged and stays as it is *)
Lemma dead_get F x : sim F -> is_Some (fget F0 x) -> ~ live0 x -> exists a, fget F x = Some a /\ g_flag a = 3.
Proof.
  intros HS [a0 Ha0] Hn. exists a0. assert (g_flag a0 = 3) as Hf.
  { destruct (decide (g_flag a0 = 3)); auto. exfalso. apply Hn. by exists a0. }
  split; auto. by eapply sim_dead.
Qed.
Lemma flag_live F x a : sim F -> fget F x = Some a -> g_flag a <> 3 -> live0 x.
Proof.
  intros HS Ha Hf. destruct (sim_get F x a HS Ha) as (a0 & Ha0 & _ & _ & _ & S4 & _).
  exists a0. split; auto. intros H3. apply Hf. by rewrite (S4 H3).
Qed.
Lemma len0_get i j : is_Some (fget F0 (i, j)) <-> j < len0 i.
Proof.
  clear. unfold fget, len0. cbn [fst snd]. destruct (F0 !! i) as [l|].
  - apply lookup_lt_is_Some.
  - split; [intros [? ?]; done|lia].
Qed.
Lemma live_len i j : live0 (i, j) -> j < len0 i.
Proof. clear. intros (a & Ha & _). apply len0_get. eauto. Qed.
Lemma sim_len F i : sim F -> i < length F0 -> exists l, F !! i = Some l /\ length l = len0 i.
Proof.
  intros HS Hi. destruct (lookup_lt_is_Some_2 F0 i Hi) as [l0 E0].
  assert ((length <$> F) !! i = Some (length l0)) as H1. { rewrite (sm_shape _ HS), list_lookup_fmap, E0. done. }
  rewrite list_lookup_fmap in H1. destruct (F !! i) as [l|]; [|done]. injection H1 as H1.
  exists l. split; auto. unfold len0. by rewrite E0.
Qed.
Lemma BASE_root x : RP x = None -> BASE x = false.
Proof.
  intros E. unfold RecogStatic.BASE. assert (bad_limits P (size0 x) (RP x) = true) as ->; [|by rewrite orb_true_r].
  unfold bad_limits. rewrite E. apply orb_true_r.
Qed.
Lemma BASE_bad x p : (p = None <-> RP x = None) -> bad_limits P (size0 x) p = true -> BASE x = false.
Proof.
  intros Hp Hb. unfold RecogStatic.BASE. assert (bad_limits P (size0 x) (RP x) = true) as ->; [|by rewrite orb_true_r].
  unfold bad_limits in *. destruct p as [u|], (RP x) as [v|]; auto.
  - apply orb_true_r.
  - destruct Hp as [Hp _]. by specialize (Hp eq_refl).
Qed.

Lemma inn_S i k : inn i (S k) = inn i k ++ (if inner i (i, k) then [(i, k)] else []).
Proof. unfold inn. rewrite vis_S, List.filter_app. cbn [List.filter]. by destruct (inner i (i, k)). Qed.

Lemma nms_step_ok cap i k s w : sim (s_F s) -> loop2 i k s w -> k < len0 i -> k < cap ->
  exists s' lvl heap, nms_step P cap i s (w_lvl w) (w_heap w) (i, k) = Some (s', lvl, heap) /\
    sim (s_F s') /\ (forall pc, loop2 i (S k) s' (WSt pc lvl heap)) /\
    (forall j, j <> i -> agree j s s').
Proof.
  intros HS [L1 L2 L3 L4 L5 L6] Hk Hcap. set (x := (i, k)). unfold nms_step.
  assert (x ∉ vis i k) as Hxv. { rewrite elem_vis. cbn. lia. }
  destruct (decide (lv x = true)) as [Hx%lv_live|Hx].
  2: { (* merged *)
    destruct (dead_get _ x HS) as (a & Ha & Hf); [by apply len0_get|by rewrite <-lv_live|].
    fold (sget s x) in Ha. rewrite Ha, Hf. cbn [Nat.eqb]. exists s, (w_lvl w), (w_heap w). split; auto. split; auto.
    split; [|intros; apply agree_refl]. intros pc.
    assert (forall z, FLAG (inn i (S k)) z = FLAG (inn i k) z) as HF.
    { intros z. rewrite inn_S. destruct (inner _ _); [|by rewrite app_nil_r]. apply FLAG_none.
      unfold vic. fold x. destruct (lv x); [done|]. by destruct (RP x). }
    constructor; cbn [w_lvl w_heap].
    - intros z Hz Hdz. destruct (L1 z Hz Hdz) as (b & ?). exists b. by rewrite HF.
    - intros z b Hz Hdz Hb Hb0. rewrite (L2 z b Hz Hdz Hb Hb0). rewrite vis_S, elem_of_app, elem_of_list_singleton.
      split; auto. intros [?| ->]; auto. exfalso. apply Hx, lv_live, Hz.
    - rewrite vis_S, counts_app. fold x. rewrite Ha, Hf. done.
    - intros z Hz. destruct (L4 z Hz) as (? & ? & ? & ?). rewrite vis_S, elem_of_app. auto.
    - intros z y Hz Hlz. rewrite HF. rewrite vis_S, elem_of_app, elem_of_list_singleton in Hz. destruct Hz as [Hz| ->].
      + by apply L5.
      + exfalso. apply Hx, lv_live, Hlz.
    - lia. }
  destruct (L1 x Hx eq_refl) as (a & Ha & Hap & Hav & Haf).
  destruct (sim_live _ x HS Hx) as (a' & Ha' & Hf3 & Hgr & Hsz & Hpt & _). fold (sget s x) in Ha'.
  assert (a' = a) as -> by congruence. clear Ha'.
  assert (forall z, live0 z -> gray0 z <= 255) as Hbyte.
  { clear - H0. intros [u v] (a0 & E & _). unfold RecogStatic.gray0. rewrite E.
    by destruct (rs_reg _ H0 u v a0 E) as (_ & ? & _). }
  rewrite Ha, Hap. destruct (Nat.eqb_spec (g_flag a) 3) as [|_]; [done|].
  destruct (RP x) as [y|] eqn:E.
  2: { (* the root *)
    assert (FLAG (inn i k) x = 1) as HF1 by (unfold FLAG; by rewrite (BASE_root x E)).
    rewrite Haf, HF1. cbn [Nat.eqb]. exists s, (w_lvl w), (w_heap w). split; auto. split; auto.
    split; [|intros; apply agree_refl]. intros pc.
    assert (inn i (S k) = inn i k) as HI. { rewrite inn_S. unfold inner. fold x. by rewrite E, app_nil_r. }
    constructor; cbn [w_lvl w_heap]; rewrite ?HI; auto.
    - intros z b Hz Hdz Hb Hb0. rewrite (L2 z b Hz Hdz Hb Hb0). rewrite vis_S, elem_of_app, elem_of_list_singleton.
      split; auto. intros [?|Hzx]; auto. exfalso. fold x in Hzx. subst z. assert (b = a) as -> by congruence. congruence.
    - rewrite vis_S, counts_app. fold x. rewrite Ha, Haf, HF1. done.
    - intros z Hz. destruct (L4 z Hz) as (? & ? & ? & ?). rewrite vis_S, elem_of_app. auto.
    - intros z y Hz Hlz Hzy. rewrite vis_S, elem_of_app, elem_of_list_singleton in Hz. destruct Hz as [Hz|Hz].
      + by apply L5.
      + fold x in Hz. subst z. congruence. }
  destruct (live0_RP F0 H0 x y Hx E) as [Hy Hgxy].
  destruct (sim_live _ y HS Hy) as (b & Hb & Hbf3 & Hbgr & Hbsz & Hbpt & _ & _ & Hbn). fold (sget s y) in Hb.
  rewrite Hb.
  destruct (negb (g_flag a =? 0) && bad_limits P (g_size b) (g_par b)) eqn:Eskip.
  { (* both already out *)
    apply andb_true_iff in Eskip as [Efa Ebad]. apply negb_true_iff, Nat.eqb_neq in Efa.
    rewrite Hbsz in Ebad. pose proof (BASE_bad y _ Hbn Ebad) as HB.
    assert (FLAG (inn i k) x = 1) as HF1 by (destruct (FLAG_01 (inn i k) x); congruence).
    exists s, (w_lvl w), (w_heap w). split; auto. split; auto.
    split; [|intros; apply agree_refl]. intros pc.
    assert (forall z, FLAG (inn i (S k)) z = FLAG (inn i k) z) as HF.
    { intros z. rewrite inn_S. destruct (inner _ _); [|by rewrite app_nil_r]. fold x. rewrite FLAG_app.
      case_bool_decide as Ev; auto. apply vic_cases in Ev as [->|Ev]; auto. assert (z = y) as -> by congruence.
      unfold FLAG. by rewrite HB. }
    constructor; cbn [w_lvl w_heap].
    - intros z Hz Hdz. destruct (L1 z Hz Hdz) as (c & ?). exists c. by rewrite HF.
    - intros z c Hz Hdz Hc Hc0. rewrite (L2 z c Hz Hdz Hc Hc0). rewrite vis_S, elem_of_app, elem_of_list_singleton.
      split; auto. intros [?|Hzx]; auto. exfalso. fold x in Hzx. subst z. congruence.
    - rewrite vis_S, counts_app. fold x. rewrite Ha. destruct (Nat.eqb_spec (g_flag a) 0); done.
    - intros z Hz. destruct (L4 z Hz) as (? & ? & ? & ?). rewrite vis_S, elem_of_app. auto.
    - intros z y' Hz Hlz Hzy. rewrite HF. rewrite vis_S, elem_of_app, elem_of_list_singleton in Hz. destruct Hz as [Hz|Hz].
      + by apply L5.
      + fold x in Hz. subst z. intros _ _. assert (y' = y) as -> by congruence. auto.
    - lia. }
  cbn zeta. set (s1 := if g_flag a =? 0 then put_calc s x else s).
  set (lvl1 := if g_flag a =? 0 then lvl_inc (w_lvl w) (g_gray a) else w_lvl w).
  assert (forall z, sget s1 z = sget s z) as Hs1 by (intros z; unfold s1; by destruct (g_flag a =? 0)).
  assert (forall z, s_var s1 z = s_var s z) as Hs1v by (intros z; unfold s1; by destruct (g_flag a =? 0)).
  assert (s_F s1 = s_F s) as Hs1F by (unfold s1; by destruct (g_flag a =? 0)).
  assert (sim (s_F s1)) as HS1 by (by rewrite Hs1F).
  assert (forall z, z <> x -> s_calc s1 z = s_calc s z) as Hs1c.
  { intros z Hz. unfold s1. destruct (g_flag a =? 0); auto. unfold put_calc. cbn [s_calc]. by rewrite fn_lookup_insert_ne. }
  assert (regsok (own i) (inn i k) s1) as M1.
  { intros z Hz Hdz. rewrite Hs1, Hs1v. by apply L1. }
  assert (calcok (own i) (vis i (S k)) s1) as M2.
  { intros z c Hz Hdz. rewrite Hs1. intros Hc Hc0. rewrite vis_S, elem_of_app, elem_of_list_singleton. fold x.
    destruct (decide (z = x)) as [->|Hne].
    - split; auto. intros _. assert (c = a) as -> by congruence. unfold s1. rewrite Hc0. cbn [Nat.eqb put_calc s_calc].
      by rewrite fn_lookup_insert.
    - rewrite Hs1c by auto. rewrite (L2 z c Hz Hdz Hc Hc0). split; [auto|]. intros [?|?]; done. }
  assert (lvl1 = counts s1 (vis i (S k))) as M3.
  { rewrite vis_S, counts_app. fold x. rewrite Hs1, Ha. unfold lvl1. rewrite L3.
    rewrite (counts_ext s s1 (vis i k)) by auto. destruct (g_flag a =? 0); cbn [andb]; auto.
    destruct (Nat.leb_spec (g_gray a) 256); auto. specialize (Hbyte x Hx). lia. }
  assert (forall j, j <> i -> agree j s s1) as M4.
  { intros j Hj. unfold s1. destruct (g_flag a =? 0); [|apply agree_refl]. apply agree_put_calc. cbn. auto. }
  assert (forall z, z ∈ w_heap w -> z ∈ vis i (S k) /\ live0 z /\ inner i z = false /\
    exists y0, RP z = Some y0 /\ gray0 y0 = gray0 z + 1) as M5.
  { intros z Hz. destruct (L4 z Hz) as (? & ? & ? & ?). rewrite vis_S, elem_of_app. auto. }
  assert (forall z, z ∈ vis i (S k) -> z = x \/ z ∈ vis i k) as M6.
  { intros z. rewrite vis_S, elem_of_app, elem_of_list_singleton. tauto. }
  assert (forall z, FLAG (inn i k) z = 1 -> FLAG (inn i (S k)) z = 1) as M7.
  { intros z Hz. rewrite inn_S. destruct (inner _ _); [|by rewrite app_nil_r]. rewrite FLAG_app. by case_bool_decide. }
  rewrite Hbpt. destruct (Nat.eqb_spec (fst y) i) as [Hyi|Hyi]; cbn [negb].
  2: { (* the parent lies in another partition *)
    assert (inner i x = false) as Ein. { unfold inner. rewrite E. by apply Nat.eqb_neq. }
    assert (inn i (S k) = inn i k) as HI. { rewrite inn_S. fold x. by rewrite Ein, app_nil_r. }
    rewrite Hgr, Hbgr. destruct (Nat.eqb_spec (gray0 y) (gray0 x + 1)) as [Hadj|Hadj].
    - destruct (Nat.ltb_spec (length (w_heap w)) cap) as [_|]; [|lia]. exists s1, lvl1, (w_heap w ++ [x]).
      split; auto. split; auto. split; auto. intros pc. constructor; cbn [w_lvl w_heap]; rewrite ?HI; auto.
      + intros z. rewrite elem_of_app, elem_of_list_singleton. intros [Hz| ->]; auto.
        rewrite vis_S, elem_of_app, elem_of_list_singleton. split; auto. split; auto. split; eauto.
      + intros z y' Hz Hlz Hzy Hin Hg. rewrite elem_of_app, elem_of_list_singleton.
        destruct (M6 z Hz) as [->|Hz']; auto. destruct (L5 z y' Hz' Hlz Hzy Hin Hg) as [?|?]; auto.
      + rewrite app_length. cbn. lia.
    - exists s1, lvl1, (w_heap w).
      split; auto. split; auto. split; auto. intros pc. constructor; cbn [w_lvl w_heap]; rewrite ?HI; auto.
      intros z y' Hz Hlz Hzy Hin Hg. destruct (M6 z Hz) as [->|Hz']; [|eauto]. exfalso. congruence. }
  assert (inner i x = true) as Ein. { unfold inner. rewrite E. by apply Nat.eqb_eq. }
  assert (inn i (S k) = inn i k ++ [x]) as HI. { rewrite inn_S. fold x. by rewrite Ein. }
  assert (forall s' pc, regsok (own i) (inn i (S k)) s' -> calcok (own i) (vis i (S k)) s' ->
    loop2 i (S k) s' (WSt pc (counts s' (vis i (S k))) (w_heap w))) as Hfin.
  { intros s' pc R1 R2. constructor; auto. cbn [w_heap]. intros z y' Hz Hlz Hzy Hin Hg.
    destruct (M6 z Hz) as [->|Hz']; [congruence|]. destruct (L5 z y' Hz' Hlz Hzy Hin Hg) as [?|[? ?]]; auto. }
  assert (vic x = None -> exists s' lvl heap, Some (s1, lvl1, w_heap w) = Some (s', lvl, heap) /\
    sim (s_F s') /\ (forall pc, loop2 i (S k) s' (WSt pc lvl heap)) /\ (forall j, j <> i -> agree j s s')) as Hnone.
  { intros Ev. exists s1, lvl1, (w_heap w). split; auto. split; auto. split; auto. intros pc. rewrite M3. apply Hfin; auto.
    rewrite HI. apply regs_none; auto. intros. by apply FLAG_none. }
  assert (own i y) as Hoy by done. destruct (L1 y Hy Hoy) as (b' & Hb' & _ & Hbv & _).
  rewrite Hav, Hbv, (var_neg x Hx), (HVAR y Hy), Hgr, Hbgr.
  destruct (fgt fzero (p_nms P)) eqn:En; cbn [orb].
  { apply Hnone. unfold vic. rewrite E. destruct (fge (p_nms P) fzero) eqn:En2; [|by rewrite andb_false_r].
    exfalso. revert En En2. clear. unfold fge, fgt, SFleb, SFltb, SFcompare, fzero. destruct (p_nms P) as [[]|[]| |[]]; done. }
  destruct (has_var x) eqn:Ehx; cbn [negb].
  2: { apply Hnone. unfold vic. rewrite E, Ehx. by rewrite andb_false_r. }
  destruct (has_var y) eqn:Ehy; cbn [andb].
  2: { apply Hnone. unfold vic. rewrite E, Ehy. by rewrite andb_false_r. }
  destruct (Nat.eqb_spec (gray0 y) (gray0 x + 1)) as [Hadj|Hadj].
  2: { apply Hnone. unfold vic. rewrite E. apply Nat.eqb_neq in Hadj. by rewrite Hadj, andb_false_r. }
  rewrite M3. destruct (regs_pair (own i) (vis i (S k)) (inn i k) s1 x y) as (s' & Hp & R0 & R1 & R2 & R3); auto.
  { apply vis_NoDup. }
  { done. }
  rewrite Hp. exists s', (counts s' (vis i (S k))), (w_heap w). split; auto. split; auto.
  split; [intros pc; apply Hfin; auto; by rewrite HI|].
  intros j Hj. apply agree_trans with s1; auto. apply R3; cbn; congruence.
Qed.

(* ---------- every step of a worker ---------- *)
Lemma base_frame i k s s' w w' : base i k s w ->
  (forall j a, live0 (i, j) -> j < k -> sget s (i, j) = Some a ->
     exists b, sget s' (i, j) = Some b /\ (g_par b = g_par a \/ g_par b = RP (i, j)) /\ g_flag b = g_flag a) ->
  (forall j, j < k -> s_var s' (i, j) = s_var s (i, j)) ->
  (forall j a, live0 (i, j) -> k <= j -> sget s (i, j) = Some a -> exists b, sget s' (i, j) = Some b /\ g_flag b = g_flag a) ->
  (forall j, s_calc s' (i, j) = s_calc s (i, j)) -> w_lvl w' = w_lvl w -> w_heap w' = w_heap w -> base i k s' w'.
Proof.
  intros (B1 & B2 & B3 & B4 & B5) H1 H2 H3 H4 H5 H6. split; [|split; [|split; [|split]]].
  - intros j Hl Hj. destruct (B1 j Hl Hj) as [(a & Ha & Hap & Haf) Hv]. destruct (H1 j a Hl Hj Ha) as (b & Hb & Hbp & Hbf).
    split; [|rewrite H2; auto]. exists b. split; auto. split; [destruct Hbp; congruence|congruence].
  - intros j Hl Hj. destruct (B2 j Hl Hj) as (a & Ha & Haf). destruct (H3 j a Hl Hj Ha) as (b & Hb & Hbf).
    exists b. split; auto. congruence.
  - intros j. by rewrite H4.
  - congruence.
  - congruence.
Qed.
Lemma base_same i k s w w' : base i k s w -> w_lvl w' = w_lvl w -> w_heap w' = w_heap w -> base i k s w'.
Proof. intros (B1 & B2 & B3 & B4 & B5) H5 H6. repeat (split; auto); congruence. Qed.

Lemma C3_pos k i : k < len0 i -> (len0 i - k) * C3 = (len0 i - S k) * C3 + C3.
Proof. clear. intros Hk. replace (len0 i - k) with (S (len0 i - S k)) by lia. lia. Qed.

Lemma dp_bound o : stored F0 o -> dp o <= nregs F0.
Proof.
  intros Ho. destruct o as [x|]; [|unfold RecogStatic.dp; simpl; lia].
  destruct (Ho x eq_refl) as [a Ha]. by destruct (dp_some F0 H0 x a Ha).
Qed.
Lemma sim_dp F x a : sim F -> live0 x -> fget F x = Some a -> dp (g_par a) < dp (Some x).
Proof.
  intros HS (a0 & Ha0 & Hf) Ha. destruct (sm_reg _ HS x a0 Ha0) as (a' & Ha' & _ & _ & _ & _ & S5).
  assert (a' = a) as -> by congruence. destruct (S5 Hf) as [_ S7]. destruct (dp_some F0 H0 x a0 Ha0) as [E _].
  rewrite E. destruct S7 as [->| ->]; [lia|]. unfold RecogStatic.RP. rewrite Ha0.
  pose proof (dp_rp F0 H0 (g_par a0) (par_stored F0 H0 x a0 Ha0)). lia.
Qed.

Lemma wstep_ok four cap i s w : sim (s_F s) -> tinv four i s w -> i < length F0 -> (four = true -> len0 i <= cap) ->
  w_pc w <> PDone ->
  exists s' w', wstep P four cap i s w = Some (s', w') /\ sim (s_F s') /\ tinv four i s' w' /\
    msr i w' < msr i w /\ (forall j, j <> i -> agree j s s').
Proof.
  intros HS HT Hi Hcap Hpc. unfold wstep, tinv, msr in *. cbn zeta.
  destruct (w_pc w) as [k|k thr r p set|k thr r p set|k thr r p|k thr r p|k|k|]; [| | | | | | |done].
  - (* PNext *)
    destruct HT as [HB Hk]. destruct (sim_len _ i HS Hi) as (l & El & Hl). rewrite El.
    destruct (l !! k) as [a|] eqn:Ea.
    + assert (sget s (i, k) = Some a) as Ha by (unfold sget, fget; cbn [fst snd]; by rewrite El).
      apply lookup_lt_Some in Ea. rewrite Hl in Ea. pose proof (C3_pos k i Ea) as HC.
      destruct (Nat.eqb_spec (g_flag a) 3) as [Hf|Hf].
      * eexists _, _. split; [reflexivity|]. split; auto. cbn [w_pc]. split; [|split; [|intros; apply agree_refl]].
        -- split; [|lia]. destruct HB as (B1 & B2 & B3 & B4 & B5). split; [|split; [|auto]].
           ++ intros j Hlj Hj. destruct (decide (j = k)) as [->|]; [|apply B1; auto; lia].
              destruct (sim_live _ (i, k) HS Hlj) as (a' & Ha' & Hf' & _). unfold sget in Ha. congruence.
           ++ intros j Hlj Hj. apply B2; auto. lia.
        -- unfold C3 in *. lia.
      * pose proof (flag_live _ (i, k) a HS Ha Hf) as Hlive.
        destruct (sim_live _ (i, k) HS Hlive) as (a' & Ha' & _ & Hg & _ & _ & Hst & Hrp & _).
        assert (a' = a) as -> by (unfold sget in Ha; congruence).
        assert (g_gray a <= 255) as Hg255.
        { rewrite Hg. destruct Hlive as (a0 & E0 & _). unfold RecogStatic.gray0. rewrite E0.
          by destruct (rs_reg _ H0 i k a0 E0) as (_ & ? & _). }
        rewrite (add_z_ok _ Hg255). eexists _, _. split; [reflexivity|]. split; auto. cbn [w_pc].
        split; [|split; [|intros; apply agree_refl]].
        -- split; [by eapply base_same|]. split; auto. rewrite Hg. repeat (split; auto).
        -- pose proof (dp_bound _ Hst). unfold C3 in *. lia.
    + apply lookup_ge_None in Ea. rewrite Hl in Ea. assert (k = len0 i) as -> by lia.
      destruct four.
      * eexists _, _. split; [reflexivity|]. split; auto. cbn [w_pc]. split; [|split; [lia|intros; apply agree_refl]].
        split; auto. split; [lia|]. destruct HB as (B1 & B2 & B3 & B4 & B5). constructor; cbn [w_lvl w_heap].
        -- intros [u j] Hz Hdz. unfold own in Hdz. cbn in Hdz. subst u.
           destruct (B1 j Hz (live_len i j Hz)) as [(a & ? & ? & Hfa) ?]. exists a. repeat (split; auto).
           rewrite Hfa. unfold FLAG. cbn. by rewrite andb_true_r.
        -- intros [u j] a Hz Hdz Ha Hf. unfold own in Hdz. cbn in Hdz. subst u. rewrite B3. by split; [|intros ?%elem_of_nil].
        -- rewrite B4. reflexivity.
        -- rewrite B5. intros x Hx. by apply elem_of_nil in Hx.
        -- intros x y Hx. by apply elem_of_nil in Hx.
        -- rewrite B5. cbn. lia.
      * eexists _, _. split; [reflexivity|]. split; auto. cbn [w_pc]. split; [|split; [lia|intros; apply agree_refl]].
        by eapply base_same.
  - (* PChase *)
    destruct HT as (HB & Hlk & -> & Hr & Htop & Hst & Hrp & Hset & Hps). destruct p as [y|].
    + destruct (Hst y eq_refl) as [b0 Hb0].
      destruct (sm_reg _ HS y b0 Hb0) as (b & Hb & HS1). fold (sget s y) in Hb. rewrite Hb.
      destruct (Nat.eqb_spec (g_flag b) 3) as [Hf|Hf].
      * assert (b = b0) as ->.
        { destruct HS1 as (_ & _ & _ & S4 & S5). destruct (decide (g_flag b0 = 3)) as [|Hn]; auto. by destruct (S5 Hn). }
        eexists _, _. split; [reflexivity|]. split; auto. cbn [w_pc]. split; [|split; [|intros; apply agree_refl]].
        -- split; [by eapply base_same|]. repeat (split; auto).
           { by eapply par_stored. } by rewrite <-(rp_dead F0 H0 y b0 Hb0 Hf).
        -- destruct (dp_some F0 H0 y b0 Hb0) as [-> _]. lia.
      * eexists _, _. split; [reflexivity|]. split; auto. cbn [w_pc]. split; [|split; [lia|intros; apply agree_refl]].
        split; [by eapply base_same|]. repeat (split; auto). rewrite <-Hrp.
        destruct (flag_live _ y b HS Hb Hf) as (c & Hc & Hfc). by rewrite (rp_live F0 y c Hc Hfc).
    + eexists _, _. split; [reflexivity|]. split; auto. cbn [w_pc]. split; [|split; [lia|intros; apply agree_refl]].
      split; [by eapply base_same|]. repeat (split; auto).
  - (* PSet *)
    destruct HT as (HB & Hlk & -> & Hr & Htop & -> & Hset & Hps).
    destruct (sim_live _ r HS Hr) as (a & Ha & Hf & Hg & Hs & Hpt & Hst & Hrp & Hn). fold (sget s r) in Ha. rewrite Ha.
    destruct set.
    + specialize (Hset eq_refl). eexists _, _. split; [reflexivity|]. split; [apply (sim_fset _ r a); auto|].
      cbn [w_pc]. split; [|split; [lia|intros j Hj; apply agree_put_par; congruence]].
      assert (forall j b, sget s (i, j) = Some b -> exists c, sget (put_par s r a (RP r)) (i, j) = Some c /\
        (g_par c = g_par b \/ g_par c = RP (i, j)) /\ g_flag c = g_flag b) as Hput.
      { intros j b Hb. rewrite (sget_put_par s r a (RP r) _ Ha). destruct (decide ((i, j) = r)) as [<-|]; [|eauto].
        exists (set_par a (RP (i, j))). assert (b = a) as -> by congruence. auto. }
      split.
      { apply (base_frame i k s _ w _ HB); auto. intros j b Hl Hj Hb. destruct (Hput j b Hb) as (c & ? & ? & ?). eauto. }
      repeat (split; auto). destruct Hps as [(b & Hb & Hbp)|[-> _]].
      * destruct (Hput k b Hb) as (c & Hc & Hcp & _). exists c. split; auto. destruct Hcp; congruence.
      * exists (set_par a (RP (i, k))). rewrite (sget_put_par s _ a _ _ Ha), decide_True by auto. auto.
    + eexists _, _. split; [reflexivity|]. split; auto. cbn [w_pc]. split; [|split; [lia|intros; apply agree_refl]].
      split; [by eapply base_same|]. repeat (split; auto). destruct Hps as [?|[_ ?]]; done.
  - (* PTest *)
    destruct HT as (HB & Hlk & -> & Hr & Htop & -> & Hps). destruct (RP r) as [y|] eqn:E.
    + destruct (live0_RP F0 H0 r y Hr E) as [Hy Hgy].
      destruct (sim_live _ y HS Hy) as (b & Hb & Hf & Hg & Hs & Hpt & Hst & Hrp & Hn).
      pose proof (sim_dp _ y b HS Hy Hb) as Hdp. fold (sget s y) in Hb. rewrite Hb.
      rewrite Hg. destruct (Z.leb_spec (Z.of_nat (gray0 y)) (Z.of_nat (gray0 (i, k)) + p_delta P)) as [Hle|Hlt].
      * eexists _, _. split; [reflexivity|]. split; auto. cbn [w_pc]. split; [|split; [lia|intros; apply agree_refl]].
        split; [by eapply base_same|]. repeat (split; auto).
        -- rewrite <-Htop. symmetry. by apply (top_up F0 H0).
        -- rewrite Hpt. by intros ?%Nat.eqb_eq.
      * eexists _, _. split; [reflexivity|]. split; auto. cbn [w_pc]. split; [|split; [lia|intros; apply agree_refl]].
        split; [by eapply base_same|]. repeat (split; auto). rewrite <-Htop. symmetry. apply (top_stop F0); auto.
        intros y' Hy'. rewrite E in Hy'. by injection Hy' as <-.
    + eexists _, _. split; [reflexivity|]. split; auto. cbn [w_pc]. split; [|split; [lia|intros; apply agree_refl]].
      split; [by eapply base_same|]. repeat (split; auto). rewrite <-Htop. symmetry. apply (top_stop F0); auto.
      intros y' Hy'. congruence.
  - (* PVar *)
    destruct HT as (HB & Hlk & -> & Hr & -> & -> & Hps).
    destruct (sim_live _ _ HS Hr) as (a & Ha & Hf & Hg & Hs & _).
    destruct (sim_live _ _ HS Hlk) as (b & Hb & _ & _ & Hs' & _).
    unfold var_of. fold (sget s (i, k)) in Hb. match goal with |- context [sget s ?r] => fold (sget s r) in Ha end.
    rewrite Ha, Hb, Hg, Hs, Hs'. eexists _, _. split; [reflexivity|]. split; auto. cbn [w_pc].
    split; [|split; [lia|intros j Hj; apply agree_put_var; cbn; auto]].
    split; [|split; auto; split; auto].
    + apply (base_frame i k s _ w _ HB); auto.
      * intros j c Hl Hj Hc. exists c. auto.
      * intros j Hj. unfold put_var. cbn [s_var]. rewrite fn_lookup_insert_ne; auto. intros [=]. lia.
      * intros j c Hl Hj Hc. exists c. auto.
    + unfold put_var. cbn [s_var]. rewrite fn_lookup_insert. reflexivity.
  - (* PFlag *)
    destruct HT as (HB & Hlk & (a & Ha & Hap) & Hv). rewrite Ha.
    destruct (sim_live _ _ HS Hlk) as (a' & Ha' & Hf & Hg & Hs & _). assert (a' = a) as -> by (unfold sget in Ha; congruence).
    rewrite Hv, Hs, Hap. pose proof (live_len i k Hlk) as Hklen. pose proof (C3_pos k i Hklen) as HC.
    pose proof HB as (B1 & B2 & B3 & B4 & B5). destruct (B2 k Hlk) as (a' & Ea' & Hf0); [lia|].
    assert (a' = a) as -> by congruence.
    destruct (_ || _) eqn:EB.
    + eexists _, _. split; [reflexivity|]. split; [by apply (sim_fset _ (i, k) a); auto|].
      cbn [w_pc]. split; [|split; [unfold C3 in *; lia|intros j Hj; apply agree_put_flag; cbn; auto]].
      assert (forall j, sget (put_flag s (i, k) a 1) (i, j) = if decide (j = k) then Some (set_flag a 1) else sget s (i, j)) as Hp.
      { intros j. rewrite (sget_put_flag s (i, k) a 1 _ Ha). destruct (decide (j = k)) as [->|Hne].
        - by rewrite decide_True. - rewrite decide_False; auto. congruence. }
      split; [|lia]. split; [|split; [|auto]].
      * intros j Hl Hj. unfold done1. rewrite Hp. destruct (decide (j = k)) as [->|].
        -- split; auto. exists (set_flag a 1). split; auto. split; auto. cbn [set_flag g_flag]. unfold RecogStatic.BASE. by rewrite EB.
        -- apply B1; auto. lia.
      * intros j Hl Hj. rewrite Hp. rewrite decide_False by lia. apply B2; auto. lia.
    + eexists _, _. split; [reflexivity|]. split; auto.
      cbn [w_pc]. split; [|split; [unfold C3 in *; lia|intros; apply agree_refl]].
      split; [|lia]. split; [|split; [|auto]].
      * intros j Hl Hj. destruct (decide (j = k)) as [->|]; [|apply B1; auto; lia].
        split; auto. exists a. split; auto. split; auto. unfold RecogStatic.BASE. by rewrite EB.
      * intros j Hl Hj. apply B2; auto. lia.
  - (* PNms *)
    destruct HT as (-> & Hk & HL). destruct (sim_len _ i HS Hi) as (l & El & Hl). rewrite El, Hl.
    destruct (Nat.leb_spec (len0 i) k) as [Hge|Hlt].
    + assert (k = len0 i) as -> by lia. eexists _, _. split; [reflexivity|]. split; auto. cbn [w_pc].
      split; [|split; [lia|intros; apply agree_refl]]. destruct HL. by constructor.
    + specialize (Hcap eq_refl). destruct (nms_step_ok cap i k s w HS HL Hlt) as (s' & lvl & heap & -> & R1 & R2 & R3); [lia|].
      eexists _, _. split; [reflexivity|]. split; auto. cbn [w_pc]. split; [|split; [lia|auto]].
      split; auto.
Qed.
End workers.
