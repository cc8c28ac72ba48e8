(* Fast MSER V1's extraction: the top regions, their lists and the room for them. *)
From stdpp Require Import sorting relations functions list_numbers list.
From Coq Require Import NArith ZArith SpecFloat.
From Verif Require Import Spec TreeSpec TreeFacts JoinMath Grid FloodModel FloodInit FloodTree FloodCorrect
  ConnectModel ConnectProof PartModel PartProof WholeModel WholeProof WholeCorrect JoinCorrect FloatModel FloatFacts
  RecogModel RecogSpec RecogStatic RecogWorkers RecogSched RecogOrder RecogDup RecogTree RecogCompose RecogFinal RecogTransport RecogResults RecogPixels
  DetectModel Detect RectModel ExtractModel ExtractLink ExtractTree
  V1JoinModel V1Heap V1Model V1Union V1BuildModel V1AllocModel V1Build V1Alloc V1Comp V1RecogModel V1Recog V1Detect V1ExtractModel V1Copy.
Local Open Scope nat_scope.

Lemma NoDup_concat {A B} (f : A -> list B) l : NoDup l -> (forall x, x ∈ l -> NoDup (f x)) ->
  (forall x y q, x ∈ l -> y ∈ l -> q ∈ f x -> q ∈ f y -> x = y) -> NoDup (concat (f <$> l)).
Proof.
  induction 1 as [|x l Hx Hl IH]; intros Hn Hd; [constructor|]. cbn [fmap list_fmap concat]. apply NoDup_app. split_and!.
  - apply Hn. constructor.
  - intros q Hq Hq'. apply elem_of_list_In, List.in_concat in Hq' as (k & Hk & Hq'). apply elem_of_list_In in Hk, Hq'.
    apply elem_of_list_fmap in Hk as (y & -> & Hy). apply Hx. rewrite (Hd x y q); auto; [constructor|by constructor].
  - apply IH; [intros y Hy; apply Hn; by constructor|]. intros y z q Hy Hz. apply Hd; by constructor.
Qed.
Lemma elem_concat {A B} (f : A -> list B) l q : q ∈ concat (f <$> l) <-> exists x, x ∈ l /\ q ∈ f x.
Proof.
  rewrite elem_of_list_In, List.in_concat. split.
  - intros (k & Hk & Hq). apply elem_of_list_In in Hk, Hq. apply elem_of_list_fmap in Hk as (x & -> & Hx). eauto.
  - intros (x & Hx & Hq). exists (f x). rewrite <-!elem_of_list_In. split; auto. apply elem_of_list_fmap. eauto.
Qed.

Lemma first_filter {A} (Q : A -> Prop) `{forall x, Decision (Q x)} w z k y : filter Q w = z :: k -> y ∈ w -> Q y ->
  exists i j, w !! i = Some z /\ w !! j = Some y /\ i <= j.
Proof.
  induction w as [|u w IH]; [done|]. rewrite filter_cons. intros E Hy Hq. destruct (decide (Q u)) as [Hu|Hu].
  - injection E as -> _. apply elem_of_list_lookup in Hy as (j & Hj). exists 0, j. split; [done|]. split; [done|lia].
  - apply elem_of_cons in Hy as [->|Hy]; [done|]. destruct (IH E Hy Hq) as (i & j & ? & ? & ?). exists (S i), (S j). split_and!; auto. lia.
Qed.

Lemma mapM_seq {A} (f : nat -> option A) s : forall p, (forall j x, s !! j = Some x -> f (p + j) = Some x) -> mapM f (seq p (length s)) = Some s.
Proof.
  intros p H. apply mapM_Some, Forall2_same_length_lookup. split; [by rewrite seq_length|].
  intros i x y Hx Hy. apply lookup_seq in Hx as [-> _]. auto.
Qed.
(* SPEC: a schedule of n workers in which each runs at least 2 N times *)
Definition copy_fair (n N : nat) (sched : list nat) : Prop :=
  Forall (fun k => k < n) sched /\ forall k, k < n -> 2 * N <= moves k sched.

Lemma filter_same {A} (Q Q' : A -> Prop) `{forall x, Decision (Q x), forall x, Decision (Q' x)} (k : list A) :
  (forall x, x ∈ k -> (Q x <-> Q' x)) -> filter Q k = filter Q' k.
Proof.
  induction k as [|x k IH]; intros Hk; [done|]. rewrite !filter_cons. rewrite IH by (intros y Hy; apply Hk; by constructor).
  destruct (Hk x) as [H1 H2]; [constructor|]. destruct (decide (Q x)), (decide (Q' x)); auto; exfalso; auto.
Qed.
(* the position in a list of points *)
Definition ref_in (M : list rref) (q : rref) : option nat := fst <$> list_find (fun x => x = q) M.
(* the results, given the lists of points and the top regions *)
Definition kres_of (gm : N) (F : list (list wreg)) (Pt : list (list wpt)) (seg : rref -> list rref) (tl l : list rref) : kres :=
  match l with
  | [] => KRes [] []
  | _ => KRes ((fun q => Some (crd Pt q)) <$> concat (seg <$> tl)) (default [] (mapM (v1_record gm F (ref_in (concat (seg <$> tl)))) l))
  end.
Definition ores_of (gm : N) (F : list (list wreg)) (Pt : list (list wpt)) (seg : rref -> list rref) (tl l : list rref)
  : list (option (nat * nat)) * list orec :=
  match l with
  | [] => ([], [])
  | _ => ((fun q => Some (crd Pt q)) <$> concat (seg <$> tl), default [] (mapM (v1_record_1 gm F (ref_in (concat (seg <$> tl)))) l))
  end.

Section tops.
Context (img : list N) (gm : N) (cols rows : nat) (Hc : 0 < cols) (Hr : 0 < rows) (Hsm : small_image cols rows).
Context (F : list (list wreg)) (Pt : list (list wpt)) (HB : v1_built img gm cols rows F Pt).
Notation V := (image_view img gm cols rows).
Notation G := (forest_of F). Notation T := (v1_table F).
Context (lab : nat -> rref) (HI : recog_input V lab G).
Context (P : rparam) (m : mode) (s : rst) (Hfl : flagged G P (final G P m) s).
Context (fuel : nat) (Hfu : nregs G + 1 < fuel).
Context (seg : rref -> list rref) (Hseg : forall r a, v1_live F r a ->
    point_walk Pt (Z.to_nat (w_size a)) (w_head a) = Some (seg r) /\ NoDup (seg r) /\ last (seg r) = w_tail a /\
    forall y b, v1_live F y b ->
      (vunder T y r -> exists A B, seg r = A ++ seg y ++ B) /\
      (forall q, q ∈ seg r -> q ∈ seg y -> vunder T y r \/ vunder T r y)).
Notation l := (reported G P m). Notation F1 := (s_F s).
Notation NR := (NR F1 fuel). Notation NP := (NP F1 fuel). Notation dd := (dd G).
Notation rel := (rel F1 dd fuel).
Let H0 := input_start V lab G HI.
Let FD := f1_dd V lab G HI P m s Hfl fuel Hfu.
Let FF := f1_fuel V lab G HI P m s Hfl fuel Hfu.

Lemma und x y : vunder (tab G) x y <-> vunder T x y.
Proof using All. apply vunder_same. intros r. by rewrite tab_forest. Qed.
Lemma live_l z : z ∈ l -> exists a, v1_live F z a.
Proof using All.
  intros Hz. destruct (l_live V lab G HI P m z Hz) as (g & Hg & Hf). rewrite fget_forest in Hg.
  destruct (get2 F z) as [a|] eqn:Ha; [|done]. injection Hg as <-. exists a. split; [done|]. done.
Qed.
Lemma size_l z a : v1_live F z a -> size0 G z = Z.to_nat (w_size a) /\ gray0 G z = w_gray a /\ length (seg z) = size0 G z.
Proof using All.
  intros [Ha Hf]. unfold size0, gray0. rewrite fget_forest, Ha. cbn. split_and!; auto.
  destruct (Hseg z a (conj Ha Hf)) as (W & _). by apply walk_len in W.
Qed.

Definition topl : list rref := filter (fun x => NP x = None) l.
Definition tsize (x : rref) : nat := size0 G x.

Lemma top_elem x : x ∈ topl <-> NP x = None /\ x ∈ l.
Proof using All. unfold topl. rewrite elem_of_list_filter. done. Qed.
Lemma top_dup : NoDup topl.
Proof using All. apply NoDup_filter. by eapply l_NoDup. Qed.

Lemma sizes_same G' x : rel G' -> x ∈ l -> exists a0 a, fget F1 x = Some a0 /\ g_flag a0 = 2 /\ fget G' x = Some a /\ short F1 dd fuel x a0 a /\ g_size a = tsize x.
Proof using All.
  intros HR Hx. destruct (proj1 (l_flags V lab G HI P m s Hfl x) Hx) as (a0 & Ha0 & Hf).
  destruct (rl_reg _ _ _ _ HR x a0 Ha0) as (a & Ha & Hsh). exists a0, a. split_and!; auto.
  destruct (l_live V lab G HI P m x Hx) as (b & Hb & _). destruct (sm_reg _ _ (fd_sim _ _ _ _ Hfl) x b Hb) as (c & Hc' & _ & E2 & _).
  assert (c = a0) as -> by congruence. destruct Hsh as (-> & _). cbn. unfold tsize, size0. by rewrite Hb, E2.
Qed.

Lemma tops_loop link room suf : forall pre G', l = pre ++ suf -> rel G' ->
  length topl <= S room -> (Z.of_nat (sum_list (tsize <$> topl)) < 2 ^ 31)%Z ->
  exists G2, each (v1_top link fuel room) suf (G', filter (fun x => NP x = None) pre, Z.of_nat (sum_list (tsize <$> filter (fun x => NP x = None) pre))) =
    Some (G2, topl, Z.of_nat (sum_list (tsize <$> topl))) /\ rel G2.
Proof using All.
  induction suf as [|x suf IH]; intros pre G' El HR Hroom Hsum.
  { rewrite app_nil_r in El. exists G'. unfold topl. rewrite El. auto. }
  assert (x ∈ l) as Hx by (rewrite El; apply elem_of_app; right; constructor).
  destruct (sizes_same G' x HR Hx) as (a0 & a & Ha0 & Hf0 & Ha & Hsh & Hsz). pose proof Hsh as (E1 & E2 & E3 & E4).
  cbn [each]. unfold v1_top at 1. rewrite Ha.
  assert (dd x + 1 < fuel) as Hfx by (apply FF; eauto).
  rewrite (find_rel F1 dd fuel FD FF fuel G' (g_par a) HR E2 ltac:(lia)), E4.
  assert (NP x = NR (g_par a0)) as HNP by (by apply NP_eq). rewrite <-HNP.
  assert (rel (fset G' x (set_par a (NP x)))) as HR'.
  { apply (rel_set F1 dd fuel G' x a0 a (NP x)); auto.
    - intros y Hy. destruct (np_spec V lab G HI P m s Hfl fuel Hfu x Hx) as [N1 _]. destruct (N1 y Hy) as (Hyl & _).
      destruct (proj1 (l_flags V lab G HI P m s Hfl y) Hyl) as (c & Hc' & _). eauto.
    - rewrite HNP. destruct (NR (g_par a0)) as [y|] eqn:Ey; cbn [odd]; [|lia].
      destruct (NR_valid F1 l dd fuel FD FF (l_flags V lab G HI P m s Hfl) (g_par a0) y) as [_ H]; auto.
      { exact (par_stored0 F1 dd FD x a0 Ha0). }
      pose proof (par_odd F1 dd FD x a0 Ha0). lia.
    - rewrite HNP. destruct (NR (g_par a0)) as [y|] eqn:Ey.
      + destruct (NR_valid F1 l dd fuel FD FF (l_flags V lab G HI P m s Hfl) (g_par a0) y) as [H _]; auto.
        { exact (par_stored0 F1 dd FD x a0 Ha0). }
        destruct (proj1 (l_flags V lab G HI P m s Hfl y) H) as (c & Hc' & Hfc).
        rewrite (NR_some F1 dd fuel FD FF y c Hc'), Hfc. done.
      + apply (NR_none F1 dd fuel FF). }
  assert (rel (if link then fset G' x (set_par a (NP x)) else G')) as HR2 by (by destruct link).
  assert (l = (pre ++ [x]) ++ suf) as El' by (by rewrite <-app_assoc).
  specialize (IH (pre ++ [x]) _ El' HR2 Hroom Hsum). rewrite filter_app, filter_cons in IH.
  destruct (NP x) as [y|] eqn:Ey.
  - rewrite decide_False in IH by done. rewrite filter_nil, app_nil_r in IH. exact IH.
  - rewrite decide_True in IH by done. rewrite filter_nil in IH.
    assert (topl = filter (fun x => NP x = None) pre ++ [x] ++ filter (fun x => NP x = None) suf) as Etop.
    { unfold topl. rewrite El, filter_app, filter_cons, decide_True by done. done. }
    assert (length (filter (fun x => NP x = None) pre) <= room) as Hlp.
    { rewrite Etop, !app_length in Hroom. cbn in Hroom. lia. }
    rewrite (proj2 (Nat.ltb_ge _ _)) by done.
    rewrite fmap_app, sum_app in IH. cbn [fmap list_fmap] in IH.
    assert (sum_list [tsize x] = tsize x) as Hone by (cbn; lia). rewrite Hone in IH.
    assert (sum_list (tsize <$> filter (fun x => NP x = None) pre) + tsize x <= sum_list (tsize <$> topl)) as Hle.
    { rewrite Etop, !fmap_app, !sum_app. cbn [fmap list_fmap]. rewrite Hone. lia. }
    rewrite Hsz. unfold add_z. cbn zeta. rewrite <-Nat2Z.inj_add.
    rewrite (proj2 (Z.leb_le _ _)), (proj2 (Z.ltb_lt _ _)) by lia. cbn [andb]. exact IH.
Qed.

(* every reported region is below a top region; top regions are not nested *)
Lemma top_above x : x ∈ l -> exists t, t ∈ topl /\ vunder T x t.
Proof using All.
  remember (dd x) as d eqn:Ed. revert x Ed. induction d as [d IH] using lt_wf_ind. intros x -> Hx.
  destruct (np_spec V lab G HI P m s Hfl fuel Hfu x Hx) as [N1 _]. destruct (NP x) as [y|] eqn:Ey.
  - destruct (N1 y eq_refl) as (Hy & Hu & Hne).
    assert (dd y < dd x) as Hd.
    { destruct (proj1 (l_flags V lab G HI P m s Hfl x) Hx) as (a & Ha & _).
      apply (NP_in F1 l dd fuel FD FF (l_flags V lab G HI P m s Hfl) x y); eauto. }
    destruct (IH (dd y) Hd y eq_refl Hy) as (t & Ht & Hyt). exists t. split; auto. etrans; [by apply und|done].
  - exists x. split; [by apply top_elem|apply rtc_refl].
Qed.
Lemma top_apart x y : x ∈ topl -> y ∈ l -> vunder T x y -> x = y.
Proof using All.
  intros [Hx Hxl]%top_elem Hyl Hu. destruct (np_spec V lab G HI P m s Hfl fuel Hfu x Hxl) as [_ N2].
  destruct (N2 y Hyl) as [->|(z & Hz & _)]; [by apply und|done|congruence].
Qed.

Notation M := (concat (seg <$> topl)).
Lemma M_dup : NoDup M.
Proof using All.
  apply NoDup_concat; [apply top_dup| |].
  - intros x [_ Hx]%top_elem. destruct (live_l x Hx) as (a & Ha). by destruct (Hseg x a Ha) as (_ & ? & _).
  - intros x y q Hx Hy Hqx Hqy. assert (x ∈ l /\ y ∈ l) as [Hxl Hyl] by (split; [by apply top_elem in Hx as [_ ?]|by apply top_elem in Hy as [_ ?]]).
    destruct (live_l x Hxl) as (a & Ha). destruct (live_l y Hyl) as (b & Hb). destruct (Hseg x a Ha) as (_ & _ & _ & H).
    destruct (H y b Hb) as [_ H']. destruct (H' q Hqx Hqy) as [Hu|Hu]; [symmetry; by apply top_apart|by apply top_apart].
Qed.
Lemma M_len : length M = sum_list (tsize <$> topl).
Proof using All.
  assert (forall k, (forall x, x ∈ k -> x ∈ l) -> length (concat (seg <$> k)) = sum_list (tsize <$> k)) as H.
  { induction k as [|x k IH]; intros Hk; [done|]. cbn [fmap list_fmap concat]. rewrite app_length. rewrite IH by (intros y Hy; apply Hk; by constructor).
    destruct (live_l x) as (a & Ha); [apply Hk; constructor|]. destruct (size_l x a Ha) as (_ & _ & ->). done. }
  apply H. by intros x [_ ?]%top_elem.
Qed.

(* the pixels of all top regions are different pixels of the image *)
Lemma pixels_of x a : v1_live F x a -> v1_pixels Pt a (crd Pt <$> seg x).
Proof using All. intros Ha. destruct (Hseg x a Ha) as (W & _). by apply walk_pixels. Qed.
Lemma image_len (k : list (nat * nat)) : NoDup k -> (forall x y, (x, y) ∈ k -> x < cols /\ y < rows) -> length k <= rows * cols.
Proof.
  clear -Hc. intros Hn Hk. rewrite <-(seq_length (rows * cols) 0), <-(fmap_length (fun c : nat * nat => snd c * cols + fst c) k).
  apply submseteq_length, NoDup_submseteq.
  - apply NoDup_fmap_2_strong; [|done]. intros [x y] [x' y'] H1 H2 E. apply Hk in H1, H2. cbn in E. 
    assert (y = y') as -> by nia. f_equal. lia.
  - intros p Hp. apply elem_of_list_fmap in Hp as ([x y] & -> & Hp). apply Hk in Hp. cbn. apply elem_of_seq. nia.
Qed.
Lemma M_pixels : NoDup (crd Pt <$> M) /\ (forall x y, (x, y) ∈ crd Pt <$> M -> x < cols /\ y < rows) /\ length M <= rows * cols.
Proof using All.
  destruct HB as (lb & HT & _ & _ & Hreg).
  assert (forall x a, v1_live F x a -> NoDup (crd Pt <$> seg x) /\ forall u v, (u, v) ∈ crd Pt <$> seg x <-> u < cols /\ v < rows /\ vunder T (lb (v * cols + u)) x) as Hpx.
  { intros x a Ha. pose proof (pixels_of x a Ha) as W. destruct Ha as [Ha Hf]. destruct (Hreg x a Ha Hf) as (_ & _ & _ & pl & W' & N & E & _).
    unfold v1_pixels in W. rewrite W in W'. injection W' as <-. auto. }
  assert (crd Pt <$> M = concat ((fun x => crd Pt <$> seg x) <$> topl)) as EM.
  { generalize topl. intros k. induction k as [|x k IH]; [done|]. cbn [fmap list_fmap concat]. rewrite fmap_app. by f_equal. }
  assert (NoDup (crd Pt <$> M)) as HN.
  { rewrite EM. apply NoDup_concat; [apply top_dup| |].
    - intros x [_ Hx]%top_elem. destruct (live_l x Hx) as (a & Ha). by apply (Hpx x a).
    - intros x y [u v] Hx Hy Hqx Hqy. assert (x ∈ l /\ y ∈ l) as [Hxl Hyl] by (split; [by apply top_elem in Hx as [_ ?]|by apply top_elem in Hy as [_ ?]]).
      destruct (live_l x Hxl) as (a & Ha). destruct (live_l y Hyl) as (b & Hb).
      apply (Hpx x a Ha) in Hqx as (_ & _ & U1). apply (Hpx y b Hb) in Hqy as (_ & _ & U2).
      destruct (vunder_linear _ _ _ _ U1 U2) as [U|U]; [by apply top_apart|symmetry; by apply top_apart]. }
  assert (forall x y, (x, y) ∈ crd Pt <$> M -> x < cols /\ y < rows) as HR.
  { rewrite EM. intros u v (x & Hx & Hq)%elem_concat. apply top_elem in Hx as [_ Hx]. destruct (live_l x Hx) as (a & Ha).
    by apply (Hpx x a Ha) in Hq as (? & ? & _). }
  split; [done|]. split; [done|]. rewrite <-(fmap_length (crd Pt) M). by apply image_len.
Qed.

(* the place of a region's list *)
Lemma M_place z : z ∈ l -> exists A B, M = A ++ seg z ++ B.
Proof using All.
  intros Hz. destruct (top_above z Hz) as (t & Ht & Hu). pose proof Ht as [_ Htl]%top_elem.
  destruct (live_l z Hz) as (a & Ha). destruct (live_l t Htl) as (b & Hb). destruct (Hseg t b Hb) as (_ & _ & _ & H).
  destruct (H z a Ha) as [H1 _]. destruct (H1 Hu) as (A & B & E). apply elem_of_list_split in Ht as (l1 & l2 & ->).
  exists (concat (seg <$> l1) ++ A), (B ++ concat (seg <$> l2)). rewrite fmap_app, concat_app. cbn [fmap list_fmap concat]. rewrite E.
  by rewrite <-!app_assoc.
Qed.

(* ---------- room for the top regions behind the reported ones ---------- *)
Definition lv (q : rref) : nat := level img gm (snd (crd Pt q) * cols + fst (crd Pt q)).
Lemma seg_levels z a : v1_live F z a -> exists h k, seg z = h :: k /\ lv h = w_gray a /\ forall q, q ∈ seg z -> lv q <= w_gray a.
Proof using All.
  intros Ha. pose proof (pixels_of z a Ha) as W. destruct HB as (lb & HT & _ & _ & Hreg). destruct Ha as [Ha Hf].
  destruct (Hreg z a Ha Hf) as (_ & _ & _ & pl & W' & N & E & (x & y & Hh & Hg) & _).
  unfold v1_pixels in W. rewrite W in W'. injection W' as <-. destruct (seg z) as [|h k] eqn:Es; [done|].
  exists h, k. split; [done|]. split; [cbn in Hh; injection Hh as Hh; unfold lv; rewrite Hh; exact Hg|].
  intros q Hq. assert (crd Pt q ∈ crd Pt <$> h :: k) as Hq' by (by apply elem_of_list_fmap_1).
  unfold lv. destruct (crd Pt q) as [u v]. cbn [fst snd]. apply E in Hq' as (Hu & Hv & Hun).
  assert (vw_in V (v * cols + u)) as Hin by (by apply (image_in img gm cols rows _ _ Hc)).
  assert (T z = Some (VReg (w_gray a) true (Z.to_nat (w_size a)) (w_par a))) as HTz.
  { unfold v1_table. rewrite Ha. cbn. destruct (Nat.eqb_spec (w_flag a) 3); [done|done]. }
  destruct (proj1 (ct_comp _ _ _ HT z _ _ _ HTz eq_refl Hin Hin Hun) Hun) as (_ & _ & ? & _). done.
Qed.
Definition hp (z : rref) : rref := default (0, 0) (head (seg z)).
Lemma hp_in z a : v1_live F z a -> hp z ∈ seg z /\ lv (hp z) = w_gray a.
Proof using All. intros Ha. destruct (seg_levels z a Ha) as (h & k & E & Hh & _). unfold hp. rewrite E. cbn. split; [constructor|done]. Qed.

Lemma same_level x y q : x ∈ l -> y ∈ l -> q ∈ seg x -> q ∈ seg y -> gray0 G x = gray0 G y -> x = y.
Proof using All.
  intros Hx Hy Qx Qy Eg. destruct (live_l x Hx) as (a & Ha). destruct (live_l y Hy) as (b & Hb).
  destruct (Hseg x a Ha) as (_ & _ & _ & H). destruct (H y b Hb) as [_ H']. destruct (decide (x = y)) as [|Hne]; [done|exfalso].
  destruct (H' q Qx Qy) as [Hu|Hu]; apply und in Hu.
  - pose proof (under_gray V lab G HI y x (l_live V lab G HI P m y Hy) (l_live V lab G HI P m x Hx) Hu Hne). lia.
  - pose proof (under_gray V lab G HI x y (l_live V lab G HI P m x Hx) (l_live V lab G HI P m y Hy) Hu (not_eq_sym Hne)). lia.
Qed.
Lemma hp_inj x y : x ∈ l -> y ∈ l -> hp x = hp y -> x = y.
Proof using All.
  intros Hx Hy E. destruct (live_l x Hx) as (a & Ha). destruct (live_l y Hy) as (b & Hb).
  destruct (hp_in x a Ha) as [X1 X2]. destruct (hp_in y b Hb) as [Y1 Y2]. apply (same_level x y (hp x)); auto; [congruence|].
  destruct (size_l x a Ha) as (_ & -> & _). destruct (size_l y b Hb) as (_ & -> & _). congruence.
Qed.
(* the lowest reported region in t *)
Definition mz (t : rref) : rref := default t (head (filter (fun z => hp z ∈ seg t) l)).
Lemma mz_spec t : t ∈ topl -> mz t ∈ l /\ (forall q, q ∈ seg (mz t) -> q ∈ seg t) /\
  forall y, y ∈ l -> hp y ∈ seg (mz t) -> y = mz t.
Proof using All.
  intros Ht. pose proof Ht as [_ Htl]%top_elem. destruct (live_l t Htl) as (b & Hb).
  destruct (filter (fun z => hp z ∈ seg t) l) as [|z k] eqn:Ef.
  { exfalso. assert (t ∈ filter (fun z => hp z ∈ seg t) l) as H. { apply elem_of_list_filter. split; [by apply (hp_in t b)|done]. }
    rewrite Ef in H. by apply elem_of_nil in H. }
  unfold mz. rewrite Ef. cbn [head default].
  assert (z ∈ filter (fun z => hp z ∈ seg t) l) as Hz by (rewrite Ef; constructor). apply elem_of_list_filter in Hz as [Hzt Hz].
  destruct (live_l z Hz) as (a & Ha). split; [done|].
  assert (forall q, q ∈ seg z -> q ∈ seg t) as Hsub.
  { destruct (Hseg t b Hb) as (_ & _ & _ & H). destruct (H z a Ha) as [H1 H2].
    destruct (H2 (hp z) Hzt) as [Hu|Hu]; [by apply (hp_in z a)| |].
    - destruct (H1 Hu) as (A & B & ->). intros q Hq. apply elem_of_app. right. apply elem_of_app. by left.
    - by rewrite (top_apart t z Ht Hz Hu). }
  split; [done|]. intros y Hy Hyz. destruct (live_l y Hy) as (c & Hyc). destruct (hp_in y c Hyc) as [Y1 Y2].
  apply (same_level y z (hp y)); auto. destruct (size_l y c Hyc) as (_ & Gy & _). destruct (size_l z a Ha) as (_ & Gz & _).
  destruct (seg_levels z a Ha) as (_ & _ & _ & _ & Hle). specialize (Hle (hp y) Hyz). rewrite Y2 in Hle.
  assert (gray0 G z <= gray0 G y) as Hge; [|lia].
  assert (y ∈ filter (fun z => hp z ∈ seg t) l) as Hyf. { apply elem_of_list_filter. auto. }
  assert (exists i j, l !! i = Some z /\ l !! j = Some y /\ i <= j) as (i & j & Hi & Hj & Hij).
  { apply elem_of_list_filter in Hyf as [Hp Hl]. exact (first_filter _ l z k y Ef Hl Hp). }
  destruct (decide (i = j)) as [->|]; [by assert (y = z) as -> by congruence|].
  eapply (l_sorted V lab G HI P m); eauto. lia.
Qed.
Definition sp (t : rref) : rref := default (0, 0) (seg (mz t) !! 1).
Lemma sp_spec t : (2 <= p_min P)%Z -> t ∈ topl -> sp t ∈ seg t /\ forall y, y ∈ l -> hp y <> sp t.
Proof using All.
  intros Hp Ht. destruct (mz_spec t Ht) as (Z1 & Z2 & Z3). destruct (live_l _ Z1) as (a & Ha).
  destruct (size_l _ a Ha) as (S1 & _ & S3). destruct (Hseg _ a Ha) as (_ & Hnd & _).
  assert (2 <= length (seg (mz t))) as Hlen.
  { rewrite S3. apply (elem_reported V lab G HI P) in Z1 as (L1 & L2 & _). destruct (flags_limits V lab G HI P m _ L1 L2) as [_ ?]. lia. }
  unfold sp. destruct (seg (mz t) !! 1) as [q|] eqn:Eq; [|apply lookup_ge_None in Eq; lia]. cbn [default].
  assert (q ∈ seg (mz t)) as Hq by (by eapply elem_of_list_lookup_2). split; [auto|]. intros y Hy E.
  assert (y = mz t) as -> by (apply Z3; auto; by rewrite E).
  destruct (seg_levels _ a Ha) as (h & k & Es & _). unfold hp in E. rewrite Es in *. cbn in E, Eq.
  apply NoDup_cons in Hnd as [Hn _]. apply Hn. rewrite E. by eapply elem_of_list_lookup_2.
Qed.
Lemma tops_room : (2 <= p_min P)%Z -> length l + length topl <= length M.
Proof using All.
  intros Hp. rewrite <-(fmap_length hp l), <-(fmap_length sp topl), <-app_length. apply submseteq_length, NoDup_submseteq.
  - apply NoDup_app. split_and!.
    + apply NoDup_fmap_2_strong; [|by eapply l_NoDup]. intros x y. apply hp_inj.
    + intros q (y & -> & Hy)%elem_of_list_fmap (t & E & Ht)%elem_of_list_fmap. destruct (sp_spec t Hp Ht) as [_ H]. by apply (H y).
    + apply NoDup_fmap_2_strong; [|apply top_dup]. intros x y Hx Hy E. destruct (sp_spec x Hp Hx) as [X _]. destruct (sp_spec y Hp Hy) as [Y _].
      rewrite <-E in Y. pose proof Hx as [_ Hxl]%top_elem. pose proof Hy as [_ Hyl]%top_elem.
      destruct (live_l x Hxl) as (a & Ha). destruct (live_l y Hyl) as (b & Hb). destruct (Hseg x a Ha) as (_ & _ & _ & H).
      destruct (H y b Hb) as [_ H']. destruct (H' _ X Y) as [Hu|Hu]; [symmetry; by apply top_apart|by apply top_apart].
  - intros q [Hq|Hq]%elem_of_app; apply elem_of_list_fmap in Hq as (y & -> & Hy).
    + destruct (live_l y Hy) as (a & Ha). destruct (M_place y Hy) as (A & B & ->). apply elem_of_app. right. apply elem_of_app. left. by apply (hp_in y a).
    + apply elem_concat. exists y. split; auto. by apply sp_spec.
Qed.

(* ---------- the copying of all workers ---------- *)
Lemma len_take i : length (concat (seg <$> take i topl)) = sumz (tsize <$> topl) i.
Proof using All.
  unfold sumz. rewrite <-fmap_take. assert (forall x, x ∈ take i topl -> x ∈ l) as H.
  { intros x Hx. apply elem_of_list_lookup in Hx as (j & Hj). apply lookup_take_Some in Hj as [Hj _].
    assert (x ∈ topl) as Hx by (by eapply elem_of_list_lookup_2). by apply top_elem in Hx as [_ ?]. }
  revert H. generalize (take i topl). intros k. induction k as [|x k IH]; intros Hk; [done|]. cbn [fmap list_fmap concat]. rewrite app_length.
  rewrite IH by (intros y Hy; apply Hk; by constructor).
  destruct (live_l x) as (a & Ha); [apply Hk; constructor|]. destruct (size_l x a Ha) as (_ & _ & ->). done.
Qed.
Lemma top_min x : x ∈ topl -> (p_min P <= Z.of_nat (tsize x))%Z.
Proof using All.
  intros [_ Hx]%top_elem. apply (elem_reported V lab G HI P) in Hx as (L1 & L2 & _). by destruct (flags_limits V lab G HI P m _ L1 L2) as [_ [? _]].
Qed.
Lemma top_walk r : r ∈ topl -> exists a, get2 F r = Some a /\ point_walk Pt (Z.to_nat (w_size a)) (w_head a) = Some (seg r).
Proof using All. intros [_ Hx]%top_elem. destruct (live_l r Hx) as (a & Ha). exists a. split; [apply Ha|]. by destruct (Hseg r a Ha) as (? & _). Qed.

(* ---------- the records ---------- *)
Lemma record_of ref z : z ∈ l -> (forall j q, M !! j = Some q -> ref q = Some j) ->
  exists a p, v1_live F z a /\ v1_pixels Pt a (crd Pt <$> seg z) /\ p + length (seg z) <= length M /\ 0 < length (seg z) /\
    (forall j q, seg z !! j = Some q -> M !! (p + j) = Some q) /\
    v1_record gm F ref z = Some (KRec (Z.to_nat (w_size a))
                     (Rect (Z.of_nat (w_left a)) (Z.of_nat (w_top a))
                           (Z.of_nat (w_right a) - Z.of_nat (w_left a) + 1) (Z.of_nat (w_bot a) - Z.of_nat (w_top a) + 1))
                     (N.lxor (N.of_nat (w_gray a)) gm) (Some p)) /\
    v1_record_1 gm F ref z = Some (ORec (Z.to_nat (w_size a)) (N.lxor (N.of_nat (w_gray a)) gm) (Some p) (Some (p + Z.to_nat (w_size a) - 1))).
Proof using All.
  intros Hz Href. destruct (live_l z Hz) as (a & Ha). destruct (M_place z Hz) as (A & B & EM).
  destruct (seg_levels z a Ha) as (h & k & Es & _). destruct (Hseg z a Ha) as (W & _ & Hlast & _).
  pose proof (walk_len _ _ _ _ W) as HL. assert (forall j q, seg z !! j = Some q -> M !! (length A + j) = Some q) as HM.
  { intros j q Hj. rewrite EM, lookup_app_r by lia. replace (length A + j - length A) with j by lia. rewrite lookup_app_l; [done|by eapply lookup_lt_Some]. }
  exists a, (length A). split; [done|]. split; [by apply pixels_of|]. split; [rewrite EM, !app_length; lia|]. split; [rewrite Es; cbn; lia|].
  split; [done|]. unfold v1_record, v1_record_1. destruct Ha as [Ha _]. rewrite Ha.
  assert (w_head a = Some h) as Hh.
  { rewrite Es in W, HL. destruct (Z.to_nat (w_size a)) as [|sz]; [done|]. cbn [point_walk] in W. destruct (w_head a) as [q|]; [|done].
    destruct (get2 Pt q) as [x|]; [|done]. destruct (point_walk Pt sz (t_next x)); [|done]. by injection W as -> _. }
  rewrite Hh, <-Hlast.
  assert (ref h = Some (length A)) as ->. { apply Href. rewrite <-(Nat.add_0_r (length A)). apply HM. by rewrite Es. }
  split; [done|]. rewrite last_lookup. destruct (lookup_lt_is_Some_2 (seg z) (pred (length (seg z)))) as [q Hq]; [rewrite Es; cbn; lia|].
  rewrite Hq. rewrite (Href _ _ (HM _ _ Hq)). do 2 f_equal. rewrite HL. rewrite Es in HL. cbn in HL. f_equal. lia.
Qed.

(* ---------- the result ---------- *)
Notation ref0 := (ref_in M).
Lemma ref0_ok i q : M !! i = Some q -> ref0 q = Some i.
Proof using All.
  intros Hi. unfold ref_in. assert (list_find (fun x => x = q) M = Some (i, q)) as ->; [|done]. apply list_find_Some. split; [done|]. split; [done|].
  intros j y Hj Hlt ->. pose proof (NoDup_lookup _ _ _ _ M_dup Hi Hj). lia.
Qed.
Lemma rec_same ref z : z ∈ l -> (forall j q, M !! j = Some q -> ref q = Some j) ->
  v1_record gm F ref z = v1_record gm F ref0 z /\ v1_record_1 gm F ref z = v1_record_1 gm F ref0 z.
Proof using All.
  intros Hz Href. destruct (record_of ref z Hz Href) as (a & p & [Ha _] & _ & _ & H0' & Hp & -> & ->).
  destruct (record_of ref0 z Hz ref0_ok) as (a' & p' & [Ha' _] & _ & _ & _ & Hp' & -> & ->). assert (a' = a) as -> by congruence.
  destruct (lookup_lt_is_Some_2 (seg z) 0 H0') as [q Hq]. pose proof (NoDup_lookup _ _ _ _ M_dup (Hp _ _ Hq) (Hp' _ _ Hq)).
  assert (p' = p) as -> by lia. done.
Qed.
Lemma recs_same {B} (f g : rref -> option B) k : (forall z, z ∈ k -> f z = g z) -> mapM f k = mapM g k.
Proof.
  induction k as [|z k IH]; intros H; [done|]. cbn. rewrite (H z) by constructor. rewrite IH; [done|]. intros y Hy. apply H. by constructor.
Qed.

Lemma records_all : exists rs os, mapM (v1_record gm F ref0) l = Some rs /\ mapM (v1_record_1 gm F ref0) l = Some os.
Proof using All.
  assert (is_Some (mapM (v1_record gm F ref0) l)) as [rs E1].
  { apply mapM_is_Some_2, Forall_forall. intros z Hz. unfold compose. destruct (record_of ref0 z Hz ref0_ok) as (a & p & _ & _ & _ & _ & _ & -> & _). eauto. }
  assert (is_Some (mapM (v1_record_1 gm F ref0) l)) as [os E2].
  { apply mapM_is_Some_2, Forall_forall. intros z Hz. unfold compose. destruct (record_of ref0 z Hz ref0_ok) as (a & p & _ & _ & _ & _ & _ & _ & ->). eauto. }
  eauto.
Qed.
Lemma mem_read (mem : list (option (nat * nat))) p z : mem = (fun q => Some (crd Pt q)) <$> M ->
  (forall j q, seg z !! j = Some q -> M !! (p + j) = Some q) ->
  mapM (fun i => mjoin (mem !! i)) (seq p (length (seg z))) = Some (crd Pt <$> seg z).
Proof using All.
  intros -> Hp. rewrite <-(fmap_length (crd Pt)). apply mapM_seq. intros j x Hj. rewrite list_lookup_fmap in Hj.
  destruct (seg z !! j) as [q|] eqn:Eq; [|done]. injection Hj as <-. rewrite list_lookup_fmap, (Hp j q Eq). done.
Qed.

Context (n : nat) (Hn : 0 < n) (Hp2 : (2 <= p_min P)%Z) (Hpn : (Z.of_nat n <= p_min P + 1)%Z).
Context (cap : nat) (Hcap : rows * cols <= cap).
Notation zs := (tsize <$> topl).

Lemma copy_all sched : copy_fair n (rows * cols) sched -> l <> [] -> exists t, v1_copy fuel n cap F Pt F1 l sched = Some t /\
  xm_mem t = (fun q => Some (crd Pt q)) <$> M /\ (forall i q, M !! i = Some q -> xm_ref t q = Some i).
Proof using All.
  intros Hsched Hl. unfold v1_copy. pose proof (tops_room Hp2) as Hroom. destruct M_pixels as (_ & _ & HM). pose proof M_len as ML.
  assert (topl <> []) as Ht.
  { destruct l as [|z l'] eqn:El; [done|]. destruct (top_above z) as (t & Ht & _); [rewrite El; constructor|]. intros E. rewrite E in Ht. by apply elem_of_nil in Ht. }
  assert (rel F1) as HR0 by (apply rel_refl; first [exact FD|exact FF]).
  destruct (tops_loop true (cap - length l) l [] F1 eq_refl HR0) as (G2 & E & HR); [lia|rewrite <-ML; unfold small_image in Hsm; lia|].
  change (each (v1_top true fuel (cap - length l)) l (F1, [], 0%Z) = Some (G2, topl, Z.of_nat (sum_list (tsize <$> topl)))) in E. rewrite E. clear E. rewrite Nat2Z.id.
  assert (map (fun x => match fget G2 x with Some a => g_size a | None => 0 end) topl = zs) as ->.
  { assert (forall x, x ∈ topl -> x ∈ l) as H by (by intros x [_ ?]%top_elem). revert H. generalize topl. intros k. induction k as [|x k IH]; intros H; [done|].
    cbn [map fmap list_fmap]. f_equal; [|apply IH; intros y Hy; apply H; by constructor].
    destruct (sizes_same G2 x HR) as (a0 & a & _ & _ & -> & _ & Es); [apply H; constructor|]. done. }
  destruct (v1_plan _ _ _ _ _ _ _ _ _) as [stops offs] eqn:Epl.
  destruct (plan_ok zs n Hn stops offs) as (b & c & B0 & Bm & Bn & Bc & Bcase & L1 & L2 & Hk); [by destruct topl|done|].
  assert (c = length zs) as Ec.
  { destruct Bcase as [|Hlt]; [done|]. destruct (decide (c = length zs)) as [|Hne]; [done|exfalso].
    destruct (lookup_lt_is_Some_2 zs c) as [z Hz]; [lia|]. pose proof (sumz_S zs n Hn c z Hz) as HS. pose proof (sumz_le zs n Hn (S c)) as HL.
    assert (p_min P <= Z.of_nat z)%Z. { rewrite list_lookup_fmap in Hz. destruct (topl !! c) as [x|] eqn:Ex; [|done]. injection Hz as <-. apply top_min. by eapply elem_of_list_lookup_2. }
    lia. }
  subst c. rewrite fmap_length in Ec, Bc.
  assert (forall i, i <= n -> b i <= length topl) as Bt.
  { intros i Hi. rewrite <-Ec. remember (n - i) as d eqn:Ed. revert i Hi Ed. induction d as [|d IH]; intros i Hi Ed; [by assert (i = n) as -> by lia|].
    pose proof (Bm i ltac:(lia)). pose proof (IH (S i) ltac:(lia) ltac:(lia)). lia. }
  assert (forall k, k < n -> exists w, xstart topl stops offs k = Some w /\ wleft seg w <= 2 * (rows * cols) /\
    wok Pt seg topl (sumz zs (b k)) (sumz zs (b (S k))) (XMem (replicate (length M) None) (fun _ => None)) w) as Hws.
  { intros k Hkn. destruct (Hk k Hkn) as (stop & off & start & E1 & E2 & E3 & E4 & E5 & E6). unfold xstart. rewrite E1, E2, E3.
    pose proof (Bm k Hkn). pose proof (Bt (S k) ltac:(lia)). destruct (decide (b k = b (S k))) as [He|Hne].
    - specialize (E6 He). assert (S stop - start = 0) as -> by lia. cbn [seq mapM option_bind option_ret]. eexists. split; [reflexivity|].
      split; [cbn; lia|]. constructor; cbn [xk_todo xk_left xk_pt xk_mem].
      + by intros r Hr'%elem_of_nil.
      + exists [], (take off M), (drop off M). split; [done|]. cbn [app fmap list_fmap concat]. rewrite take_drop. split; [done|]. split; [|left; by rewrite He].
        rewrite take_length. pose proof (sumz_le zs n Hn (b k)). lia.
      + intros i Hi. lia.
    - destruct E5 as (-> & Es & ->); [lia|]. rewrite Es. set (sh := take (b (S k) - b k) (drop (b k) topl)).
      assert (length sh = b (S k) - b k) as Lsh by (unfold sh; rewrite take_length, drop_length; lia).
      assert (topl = take (b k) topl ++ sh ++ drop (b (S k)) topl) as Esp.
      { unfold sh. rewrite <-(take_drop (b k) topl) at 1. f_equal. rewrite <-(take_drop (b (S k) - b k) (drop (b k) topl)) at 1. f_equal.
        rewrite drop_drop. f_equal. lia. }
      assert (mapM (fun i => topl !! i) (seq (b k) (b (S k) - b k)) = Some sh) as ->.
      { rewrite <-Lsh. apply mapM_seq. intros j x Hj. unfold sh in Hj. apply lookup_take_Some in Hj as [Hj _]. by rewrite lookup_drop in Hj. }
      eexists. split; [reflexivity|]. assert (concat (seg <$> topl) = concat (seg <$> take (b k) topl) ++ concat (seg <$> sh) ++ concat (seg <$> drop (b (S k)) topl)) as EM.
      { rewrite Esp at 1. by rewrite !fmap_app, !concat_app. }
      assert (length sh <= length topl) by lia.
      split.
      { unfold wleft. cbn [xk_left xk_todo]. assert (length (concat (seg <$> sh)) <= length M) by (rewrite EM, !app_length; lia). lia. }
      constructor; cbn [xk_todo xk_left xk_pt xk_mem].
      + intros r Hr'. rewrite Esp. apply elem_of_app. right. apply elem_of_app. by left.
      + exists [], (concat (seg <$> take (b k) topl)), (concat (seg <$> drop (b (S k)) topl)). split; [done|]. split; [exact EM|].
        split; [apply len_take|]. right. cbn [app]. rewrite <-(len_take (b (S k))).
        assert (take (b (S k)) topl = take (b k) topl ++ sh) as ->.
        { rewrite Esp at 1. rewrite app_assoc, take_app_le by (rewrite app_length, take_length; lia). apply take_ge. rewrite app_length, take_length. lia. }
        rewrite fmap_app, concat_app, app_length, len_take. lia.
      + intros i Hi. lia. }
  assert (is_Some (mapM (xstart topl stops offs) (seq 0 n))) as [ws Ews].
  { apply mapM_is_Some_2, Forall_forall. intros k Hk'%elem_of_seq. unfold compose. destruct (Hws k ltac:(lia)) as (w & -> & _). eauto. }
  rewrite Ews. apply mapM_Some in Ews. pose proof (Forall2_length _ _ _ Ews) as Lw. rewrite seq_length in Lw.
  assert (forall k w, ws !! k = Some w -> xstart topl stops offs k = Some w) as Hwk.
  { intros k w Hw. destruct (Forall2_lookup_r _ _ _ _ _ Ews Hw) as (i & Hi & E). apply lookup_seq in Hi as [-> _]. exact E. }
  destruct Hsched as [Hs1 Hs2].
  destruct (copy_ok F Pt seg topl top_walk M_dup (fun k => sumz zs (b k)) ws sched) as (t & ws' & Er & Hd & H1 & H2).
  - by rewrite B0.
  - intros k Hk'. destruct (Hws k ltac:(lia)) as (w & _ & _ & [_ _ _]). pose proof (Bm k ltac:(lia)). rewrite <-!len_take.
    assert (b (S k) = b k + (b (S k) - b k)) as -> by lia. rewrite <-(take_take_drop topl). rewrite fmap_app, concat_app, app_length. lia.
  - rewrite <-Lw, Ec, <-len_take, take_ge; auto.
  - intros k w Hw. pose proof (lookup_lt_Some _ _ _ Hw). destruct (Hws k ltac:(lia)) as (w' & E & W1 & W2).
    rewrite (Hwk k w Hw) in E. injection E as <-. split; [|exact W2]. specialize (Hs2 k ltac:(lia)). lia.
  - rewrite <-Lw. exact Hs1.
  - rewrite <-ML. rewrite Er, Hd. eauto.
Qed.


Lemma extract_all : exists R, (forall sched, copy_fair n (rows * cols) sched -> v1_extract_k fuel n cap gm F Pt F1 l sched = Some R) /\
  R = kres_of gm F Pt seg topl l /\
  (exists ml, k_mem R = Some <$> ml /\ NoDup ml /\ forall x y, (x, y) ∈ ml -> x < cols /\ y < rows) /\
  length (k_recs R) = length l /\
  forall i r, k_recs R !! i = Some r -> exists z a pl, l !! i = Some z /\ v1_live F z a /\ v1_pixels Pt a pl /\
    k_read (k_mem R) r = Some pl /\ kr_size r = Z.to_nat (w_size a) /\ kr_gray r = N.lxor (N.of_nat (w_gray a)) gm /\
    kr_rect r = Rect (Z.of_nat (w_left a)) (Z.of_nat (w_top a))
                     (Z.of_nat (w_right a) - Z.of_nat (w_left a) + 1) (Z.of_nat (w_bot a) - Z.of_nat (w_top a) + 1).
Proof using All.
  destruct records_all as (rs & os & Ers & _).
  destruct (decide (l = [])) as [El|Hl].
  { exists (KRes [] []). unfold v1_extract_k, kres_of. rewrite El. split; [done|]. split; [done|]. cbn [k_mem k_recs]. split; [exists []; split; [done|]; split; [constructor|by intros ? ? ?%elem_of_nil]|].
    split; [done|]. done. }
  exists (KRes ((fun q => Some (crd Pt q)) <$> M) rs). cbn [k_mem k_recs]. split; [|split; [unfold kres_of; rewrite Ers; by destruct l|split; [|split]]].
  - intros sched Hsched. destruct (copy_all sched Hsched Hl) as (t & E & Em & Er). unfold v1_extract_k. rewrite E.
    assert (mapM (v1_record gm F (xm_ref t)) l = Some rs) as ->.
    { rewrite <-Ers. apply recs_same. intros z Hz. by apply rec_same. }
    rewrite Em. by destruct l.
  - exists (crd Pt <$> M). destruct M_pixels as (A & B & _). split; [by rewrite <-list_fmap_compose|]. auto.
  - apply mapM_length in Ers. done.
  - apply mapM_Some in Ers. intros i r Hi. destruct (Forall2_lookup_r _ _ _ _ _ Ers Hi) as (z & Hz & E).
    assert (z ∈ l) as Hzl by (by eapply elem_of_list_lookup_2).
    destruct (record_of ref0 z Hzl ref0_ok) as (a & p & Ha & Hpx & _ & _ & Hp & E' & _). rewrite E' in E. injection E as <-.
    exists z, a, (crd Pt <$> seg z). split; [done|]. split; [done|]. split; [done|]. cbn. split; [|done].
    destruct (size_l z a Ha) as (Sz1 & _ & Sz2). rewrite <-Sz1, <-Sz2. by apply mem_read.
Qed.

(* one thread *)
Lemma serial_ok k : forall t w, length (xm_mem t) = length M -> wok Pt seg topl 0 (length M) t w -> wleft seg w <= k ->
  exists t', xserial k F Pt t w = Some t' /\ xm_mem t' = (fun q => Some (crd Pt q)) <$> M /\ (forall i q, M !! i = Some q -> xm_ref t' q = Some i).
Proof using All.
  induction k as [|k IH]; intros t w HL HW Hle; cbn [xserial].
  all: destruct (xdone w) eqn:Ed.
  1,3: destruct HW as [_ HW2 HW3]; exists t; split; [done|]; apply (all_written F Pt seg topl top_walk M_dup); [done|]; intros i Hi; apply HW3; split; [lia|];
    destruct HW2 as (A & pre & post & E1 & E2 & E3 & E4); destruct w as [todo pt rest off]; cbn in *;
    destruct rest, todo; try done; injection E1 as <-; cbn in E4; lia.
  - destruct w as [todo pt rest off]. unfold wleft in Hle. cbn in *. destruct rest; [|lia]. destruct todo; [done|cbn in Hle; lia].
  - destruct (xstep_ok F Pt seg topl top_walk M_dup 0 (length M) t w HL HW) as (t' & w' & -> & H1 & _ & H3 & H4). apply IH; auto. lia.
Qed.
Lemma extract_one : 2 * (rows * cols) <= fuel -> exists mem os, v1_extract_1 fuel cap gm F Pt F1 l = Some (mem, os) /\
  (mem, os) = ores_of gm F Pt seg topl l /\
  (exists ml, mem = Some <$> ml /\ NoDup ml /\ forall x y, (x, y) ∈ ml -> x < cols /\ y < rows) /\
  length os = length l /\
  forall i r, os !! i = Some r -> exists z a pl p, l !! i = Some z /\ v1_live F z a /\ v1_pixels Pt a pl /\
    or_first r = Some p /\ or_last r = Some (p + length pl - 1) /\ mapM (fun i => mjoin (mem !! i)) (seq p (length pl)) = Some pl /\
    or_size r = Z.to_nat (w_size a) /\ or_gray r = N.lxor (N.of_nat (w_gray a)) gm.
Proof using All.
  intros Hfu2. destruct records_all as (rs & os & _ & Eos). destruct M_pixels as (MA & MB & MC).
  destruct (decide (l = [])) as [El|Hl].
  { exists [], []. unfold v1_extract_1, ores_of. rewrite El. split; [done|]. split; [done|]. split; [exists []; split; [done|]; split; [constructor|by intros ? ? ?%elem_of_nil]|].
    split; [done|]. done. }
  exists ((fun q => Some (crd Pt q)) <$> M), os. split; [|split; [unfold ores_of; rewrite Eos; by destruct l|split; [|split]]].
  - unfold v1_extract_1. pose proof (tops_room Hp2) as Hroom. pose proof M_len as ML.
    assert (rel F1) as HR0 by (apply rel_refl; first [exact FD|exact FF]).
    destruct (tops_loop false (cap - length l) l [] F1 eq_refl HR0) as (G2 & E & HR); [lia|rewrite <-ML; unfold small_image in Hsm; lia|].
    change (each (v1_top false fuel (cap - length l)) l (F1, [], 0%Z) = Some (G2, topl, Z.of_nat (sum_list (tsize <$> topl)))) in E. rewrite E. clear E. rewrite Nat2Z.id, <-ML.
    destruct (serial_ok fuel (XMem (replicate (length M) None) (fun _ => None)) (XWk topl None 0 0)) as (t & -> & Em & Er).
    + apply replicate_length.
    + constructor; cbn [xk_todo xk_left xk_pt xk_mem]; [done| |lia]. exists [], [], []. split; [done|]. cbn [app length]. rewrite app_nil_r. auto.
    + unfold wleft. cbn [xk_todo xk_left]. lia.
    + assert (mapM (v1_record_1 gm F (xm_ref t)) l = Some os) as ->.
      { rewrite <-Eos. apply recs_same. intros z Hz. by apply rec_same. }
      rewrite Em. by destruct l.
  - exists (crd Pt <$> M). split; [by rewrite <-list_fmap_compose|]. auto.
  - apply mapM_length in Eos. done.
  - apply mapM_Some in Eos. intros i r Hi. destruct (Forall2_lookup_r _ _ _ _ _ Eos Hi) as (z & Hz & E).
    assert (z ∈ l) as Hzl by (by eapply elem_of_list_lookup_2).
    destruct (record_of ref0 z Hzl ref0_ok) as (a & p & Ha & Hpx & _ & _ & Hp & _ & E'). rewrite E' in E. injection E as <-.
    exists z, a, (crd Pt <$> seg z), p. split; [done|]. split; [done|]. split; [done|]. cbn.
    destruct (size_l z a Ha) as (Sz1 & _ & Sz2). rewrite fmap_length, Sz2, Sz1. split; [done|]. split; [done|]. split; [|done].
    rewrite <-Sz1, <-Sz2. by apply mem_read.
Qed.
End tops.

(* the top regions do not depend on the run *)
Lemma topl_same V F lab (HI : recog_input V lab (forest_of F)) P m s s' fuel : flagged (forest_of F) P (final (forest_of F) P m) s -> flagged (forest_of F) P (final (forest_of F) P m) s' ->
  nregs (forest_of F) + 1 < fuel -> topl F P m s fuel = topl F P m s' fuel.
Proof.
  intros H H' Hfu. unfold topl. apply filter_same. intros x Hx.
  destruct (np_spec V lab _ HI P m s H fuel Hfu x Hx) as [A1 A2]. destruct (np_spec V lab _ HI P m s' H' fuel Hfu x Hx) as [B1 B2].
  split; intros E.
  - destruct (NP (s_F s') fuel x) as [y|]; [|done]. destruct (B1 y eq_refl) as (Hy & Hu & Hne). destruct (A2 y Hy Hu) as [->|(z & Hz & _)]; [done|congruence].
  - destruct (NP (s_F s) fuel x) as [y|]; [|done]. destruct (A1 y eq_refl) as (Hy & Hu & Hne). destruct (B2 y Hy Hu) as [->|(z & Hz & _)]; [done|congruence].
Qed.
