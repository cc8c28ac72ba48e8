(* The recognition results in the form of the properties. *)
From stdpp Require Import sorting relations functions list_numbers list.
From Coq Require Import NArith ZArith SpecFloat.
From Verif Require Import Spec TreeSpec TreeFacts JoinMath FloodModel ConnectModel ConnectProof JoinCorrect FloatModel FloatFacts
  RecogModel RecogSpec RecogStatic RecogWorkers RecogSched RecogNms RecogSerial RecogOrder DupAbs RecogDup GrowthFacts RecogTree
  RecogCompose RecogFinal RecogTransport.
Local Open Scope nat_scope.

(* SPEC: the situation in which recognition starts: the component tree of a connected
   view, no variation computed yet, a delta within i32, workers that can finish *)
Record ready (V : view) (lab : nat -> rref) (F : forest) (P : rparam) (fuel : nat) (m : mode) (s0 : rst) : Prop := {
  rd_input : recog_input V lab F;
  rd_delta : delta_ok P;
  rd_fuel : nregs F < fuel;
  rd_mode : mode_ok F m;
  rd_F : s_F s0 = F;
  rd_calc : forall x, s_calc s0 x = false
}.
(* SPEC: a surviving region of the tree F *)
Definition alive (F : forest) (z : rref) (a : vreg rref) : Prop := tab F z = Some a /\ v_live a = true.
(* SPEC: var holds the variations over d levels of the surviving regions *)
Definition variations (V : view) (lab : nat -> rref) (F : forest) (d : nat) (var : rref -> flt) : Prop :=
  forall z a, alive F z a -> variation V d (v_gray a) (region_pixels V lab (tab F) z) (var z).
(* SPEC: the serial version computes no variations unless delta is positive *)
Definition computes (P : rparam) (m : mode) : Prop := match m with One => (0 < p_delta P)%Z | _ => True end.
(* SPEC: delta is positive or the maximal variation not negative *)
Definition sane (P : rparam) : Prop := (0 < p_delta P)%Z \/ fgt fzero (p_stable P) = false.

Lemma has_vars_computes P m : has_vars P m = true <-> computes P m.
Proof. destruct m; cbn; try done. by rewrite Z.ltb_lt. Qed.

Lemma variation_unique V d g S v v' : (exists N, card_is (vw_in V) N) ->
  variation V d g S v -> variation V d g S v' -> v = v'.
Proof.
  intros (N & l & _ & Hl & _) [H1 H2] [H1' H2'].
  destruct (decide (Exists (fun q => g + d <= vw_gray V q) l)) as [He|Hn].
  - assert (exists q, vw_in V q /\ g + d <= vw_gray V q) as E.
    { apply Exists_exists in He as (q & Hq & ?). exists q. split; auto. by apply Hl. }
    destruct (H1 E) as (n & m & C1 & C2 & ->). destruct (H1' E) as (n' & m' & C1' & C2' & ->).
    by rewrite (card_unique _ _ _ C1 C1'), (card_unique _ _ _ C2 C2').
  - assert (~ exists q, vw_in V q /\ g + d <= vw_gray V q) as E.
    { intros (q & Hq & ?). apply Hn. apply Exists_exists. exists q. split; auto. by apply Hl. }
    by rewrite (H2 E), (H2' E).
Qed.

Section res.
Context (V : view) (lab : nat -> rref) (F : forest) (P : rparam) (fuel : nat) (m : mode) (s0 : rst).
Context (HR : ready V lab F P fuel m s0).
Notation pix := (region_pixels V lab (tab F)).
Let HI := rd_input _ _ _ _ _ _ _ HR.

Lemma alive_live z a : alive F z a -> live0 F z /\ v_gray a = gray0 F z /\ v_size a = size0 F z.
Proof.
  intros [Ha Hl]. assert (live0 F z) as Hz by (apply live_tab; eauto). split; auto.
  destruct (live_get F z Hz) as (a' & Ha' & _ & E1 & E2). assert (a' = a) as -> by congruence. auto.
Qed.
Lemma live_alive z : live0 F z -> exists a, alive F z a /\ v_gray a = gray0 F z /\ v_size a = size0 F z.
Proof. intros Hz. destruct (live_get F z Hz) as (a & Ha & Hl & E1 & E2). exists a. by split. Qed.

Lemma VAR_variations d : (p_delta P = Z.of_nat d)%Z -> variations V lab F d (VAR F P).
Proof.
  intros Hd z a Ha. destruct (alive_live z a Ha) as (Hz & -> & _). by apply (VAR_spec V lab F HI P d z Hz).
Qed.
Lemma variations_VAR d var : (p_delta P = Z.of_nat d)%Z -> variations V lab F d var -> forall z, live0 F z -> var z = VAR F P z.
Proof.
  intros Hd Hv z Hz. destruct (live_alive z Hz) as (a & Ha & _).
  destruct (ri_small _ _ _ HI) as (N & HN & _).
  eapply (variation_unique V d (v_gray a) (pix z)); eauto. by apply VAR_variations.
Qed.

(* C09 *)
Lemma variations_ok d b : (p_delta P = Z.of_nat d)%Z -> computes P m ->
  exists s l b', candidates fuel m P b s0 = Some (s, l, b') /\ variations V lab F d (s_var s).
Proof.
  intros Hd Hc. pose proof HR as [_ H1 H2 H3 H4 H5].
  destruct (candidates_ok V lab F HI P H1 fuel m b s0 H2 H3 H4 H5) as (s & l & b' & E & _ & Hv).
  exists s, l, b'. split; auto. intros z a Ha. destruct (alive_live z a Ha) as (Hz & _ & _).
  rewrite Hv by (auto; by apply has_vars_computes). by apply VAR_variations.
Qed.

Lemma survives_ext var var' z : (forall z, live0 F z -> var z = var' z) -> survives P (tab F) var z -> survives P (tab F) var' z.
Proof.
  intros He (Hl & Hs & Hn). assert (live0 F z) as Hz.
  { destruct Hl as (a & Ha & Hla & _). apply live_tab. eauto. }
  split; auto. rewrite <-(He z Hz). split; auto. intros Hg q Hq.
  assert (live0 F q) as Hlq.
  { destruct Hq as (a & c & Ha & Hc & [[(_ & (c' & Hc' & ?) & _) _]|[((c' & Hc' & ?) & _) _]]); apply live_tab; eauto. }
  rewrite <-(He q Hlq). by apply Hn.
Qed.
Lemma survives_live var z : survives P (tab F) var z -> live0 F z.
Proof. intros ((a & Ha & Hla & _) & _). apply live_tab. eauto. Qed.
Lemma limits_live z : in_limits P (tab F) z -> live0 F z.
Proof. intros (a & Ha & Hla & _). apply live_tab. eauto. Qed.

Lemma LIM_limits z : live0 F z -> LIM F P z = true <-> in_limits P (tab F) z.
Proof.
  intros Hz. unfold RecogSerial.LIM. rewrite negb_true_iff. unfold bad_limits. rewrite !orb_false_iff, !Z.ltb_ge.
  destruct (live_get F z Hz) as (a & Ha & Hla & _ & Hs). pose proof (input_start V lab F HI) as H0. split.
  - intros [[E1 E2] E3]. exists a. split; auto. split; auto. split; [lia|].
    destruct (RP F z) as [t|] eqn:Et; [|done]. exists t. by apply sparent_RP.
  - intros (a' & Ha' & _ & Hs' & t & Ht). assert (a' = a) as -> by congruence. rewrite <-Hs. split; [lia|].
    apply (sparent_RP F H0 z t) in Ht as [_ Ht]. by rewrite Ht.
Qed.

(* the flags of a variant, in terms of the tree *)
Lemma flags_survives z : sane P \/ computes P m -> live0 F z -> flags F P m z = 0 <-> survives P (tab F) (VAR F P) z.
Proof.
  intros Hs Hz. rewrite <-(FLAG_survives V lab F HI P z Hz).
  destruct m as [|sched caps|sched]; cbn [flags]; try done.
  destruct (Z.ltb_spec 0 (p_delta P)) as [|Hle]; [done|].
  assert (fgt fzero (p_stable P) = false) as Hst. { destruct Hs as [[?|?]|?]; cbn in *; auto; lia. }
  rewrite (FLAG_delta0 V lab F P z HI Hle Hz). destruct (LIM F P z); naive_solver.
Qed.

(* C10 *)
Lemma survivors_ok d b var : (p_delta P = Z.of_nat d)%Z -> computes P m \/ fgt fzero (p_stable P) = false ->
  variations V lab F d var ->
  exists s l b', candidates fuel m P b s0 = Some (s, l, b') /\ forall z, z ∈ l <-> survives P (tab F) var z.
Proof.
  intros Hd Hc Hv. pose proof HR as [_ H1 H2 H3 H4 H5].
  destruct (candidates_ok V lab F HI P H1 fuel m b s0 H2 H3 H4 H5) as (s & l & b' & E & (_ & -> & _) & _).
  exists s, (CL F (flags F P m)), b'. split; auto. intros z. pose proof (variations_VAR d var Hd Hv) as He.
  rewrite (elem_CL V lab F HI P). split.
  - intros [Hz Hf]. apply (flags_survives z) in Hf; auto. 2: { unfold sane. tauto. }
    eapply survives_ext; [|exact Hf]. intros. symmetry. auto.
  - intros Hs. pose proof (survives_live _ _ Hs) as Hz. split; auto. apply (flags_survives z); auto.
    { unfold sane. tauto. } eapply survives_ext; [|exact Hs]. auto.
Qed.

(* the serial version without a delta reports the regions in the limits *)
Lemma serial_no_delta b : m = One -> (p_delta P <= 0)%Z ->
  exists s l b', candidates fuel m P b s0 = Some (s, l, b') /\ forall z, z ∈ l <-> in_limits P (tab F) z.
Proof.
  intros Em Hd. pose proof HR as [_ H1 H2 H3 H4 H5].
  destruct (candidates_ok V lab F HI P H1 fuel m b s0 H2 H3 H4 H5) as (s & l & b' & E & (_ & -> & _) & _).
  exists s, (CL F (flags F P m)), b'. split; auto. intros z. rewrite (elem_CL V lab F HI P). rewrite Em. cbn [flags].
  destruct (Z.ltb_spec 0 (p_delta P)); [lia|]. split.
  - intros [Hz Hf]. apply LIM_limits; auto. by destruct (LIM F P z).
  - intros Hl. pose proof (limits_live z Hl) as Hz. split; auto. apply LIM_limits in Hl; auto. by rewrite Hl.
Qed.

(* C13 *)
Lemma er_delta0 b : p_delta P = 0%Z -> fgt fzero (p_stable P) = false ->
  exists s l b', candidates fuel m P b s0 = Some (s, l, b') /\ forall z, z ∈ l <-> in_limits P (tab F) z.
Proof.
  intros Hd Hst. pose proof HR as [_ H1 H2 H3 H4 H5].
  destruct (candidates_ok V lab F HI P H1 fuel m b s0 H2 H3 H4 H5) as (s & l & b' & E & (_ & -> & _) & _).
  exists s, (CL F (flags F P m)), b'. split; auto. intros z. rewrite (elem_CL V lab F HI P).
  assert (forall z, live0 F z -> flags F P m z = 0 <-> in_limits P (tab F) z) as Hf.
  { intros x Hx. rewrite (flags_survives x) by (auto; by left; right). rewrite <-(FLAG_survives V lab F HI P x Hx).
    rewrite (FLAG_delta0 V lab F P x HI) by (auto; lia). rewrite (LIM_limits x Hx). tauto. }
  split; [intros [Hz ?]; by apply Hf|]. intros Hl. pose proof (limits_live z Hl) as Hz. split; auto. by apply Hf.
Qed.
Lemma VAR_max z : live0 F z -> fgt (VAR F P z) flt_max = false.
Proof.
  intros Hz. unfold RecogStatic.VAR. set (thr := (Z.of_nat (gray0 F z) + p_delta P)%Z).
  cbv zeta. destruct (_ || _); [|done]. destruct (live_top V lab F HI thr z Hz) as (H1 & _ & H2).
  apply growth_max; auto; [by eapply size_pos|by eapply size_small].
Qed.
Lemma ser_mode d b var : (p_delta P = Z.of_nat d)%Z -> computes P m -> fge (p_nms P) fzero = false -> variations V lab F d var ->
  exists s l b', candidates fuel m P b s0 = Some (s, l, b') /\
    forall z, z ∈ l <-> in_limits P (tab F) z /\ fgt (var z) (p_stable P) = false.
Proof.
  intros Hd Hc Hn Hv. destruct (survivors_ok d b var Hd (or_introl Hc) Hv) as (s & l & b' & E & Hl).
  exists s, l, b'. split; auto. intros z. rewrite Hl. unfold survives. rewrite Hn. naive_solver.
Qed.
Lemma er_mode d b : (p_delta P = Z.of_nat d)%Z -> p_stable P = flt_max -> fge (p_nms P) fzero = false ->
  exists s l b', candidates fuel m P b s0 = Some (s, l, b') /\ forall z, z ∈ l <-> in_limits P (tab F) z.
Proof.
  intros Hd Hst Hn. destruct (survivors_ok d b (VAR F P) Hd) as (s & l & b' & E & Hl).
  { right. by rewrite Hst. } { by apply VAR_variations. }
  exists s, l, b'. split; auto. intros z. rewrite Hl. unfold survives. rewrite Hn, Hst. split; [tauto|].
  intros H. split; auto. split; [|done]. apply VAR_max. by apply limits_live.
Qed.

(* C14 *)
Definition before (F : forest) (x y : rref) : Prop :=
  exists a c, tab F x = Some a /\ tab F y = Some c /\ (v_gray a < v_gray c \/ (v_gray a = v_gray c /\ rlt x y)).
Lemma order_ok b : exists s l b', candidates fuel m P b s0 = Some (s, l, b') /\
  NoDup l /\ StronglySorted (before F) l /\ length l <= cb_cap b' /\
  forall l1 x l2 y, l = l1 ++ x :: l2 -> y ∈ l -> vunder (tab F) x y -> x = y \/ y ∈ l2.
Proof.
  pose proof HR as [_ H1 H2 H3 H4 H5].
  destruct (candidates_ok V lab F HI P H1 fuel m b s0 H2 H3 H4 H5) as (s & l & b' & E & (_ & -> & ->) & _).
  set (fl := flags F P m) in *. exists s, (CL F fl), (size_buffer b (length (CL F fl))). split; auto.
  split; [by eapply CL_NoDup|].
  assert (forall x, x ∈ CL F fl -> live0 F x) as HL. { intros x Hx. by apply (elem_CL V lab F HI P) in Hx as [? _]. }
  split; [|split].
  - pose proof (CL_sorted F fl) as Hs. clear E. revert HL Hs. generalize (CL F fl). intros l0 HL Hs. induction Hs as [|x l' Hs IH Hx]; constructor.
    + apply IH. intros y Hy. apply HL. by right.
    + apply Forall_forall. intros y Hy. rewrite Forall_forall in Hx. specialize (Hx y Hy).
      destruct (live_get F x) as (a & Ha & _ & Ea & _); [apply HL; by left|].
      destruct (live_get F y) as (c & Hc & _ & Ec & _); [apply HL; by right|].
      exists a, c. split; auto. split; auto. rewrite Ea, Ec. exact Hx.
  - apply size_buffer_ok. by eapply CL_small.
  - intros l1 x l2 y El Hy Hu. pose proof (CL_sorted F fl) as Hs. rewrite El in Hy, Hs.
    assert (live0 F x) as Hx by (apply HL; rewrite El; apply elem_of_app; right; left).
    assert (live0 F y) as Hyl by (apply HL; rewrite El; done).
    pose proof (under_anc V lab F HI x y Hx Hyl Hu) as Ha. apply rtc_inv in Ha as [?|(z & Hxz & Hzy)]; auto.
    assert (gray0 F x < gray0 F y) as Hlt.
    { destruct (live0_RP F (input_start V lab F HI) x z Hx Hxz) as [Hz Hg].
      destruct (pix_own V lab F HI x Hx) as (p & Hp & _).
      assert (gray0 F z <= gray0 F y); [|lia]. destruct (pix_own V lab F HI z Hz) as (q & Hq & <-).
      apply (pix_gray V lab F HI y q Hyl). by eapply pix_mono. }
    apply elem_of_app in Hy as [Hy|Hy].
    + exfalso. apply elem_of_list_split in Hy as (u & w & ->). rewrite <-app_assoc in Hs.
      apply StronglySorted_app_inv_r in Hs. cbn [app] in Hs. apply StronglySorted_inv in Hs as [_ Hs]. rewrite Forall_forall in Hs.
      specialize (Hs x). destruct Hs as [?|[? _]]; [|lia|lia]. apply elem_of_app. right. left.
    + apply elem_of_cons in Hy as [->|?]; [lia|]. auto.
Qed.
End res.

(* ---------- the reported regions ---------- *)
(* SPEC: the set S is reported by the list l of regions *)
Definition reports (V : view) (lab : nat -> rref) (F : forest) (l : list rref) (S : nat -> Prop) : Prop :=
  exists z, z ∈ l /\ forall p, S p <-> region_pixels V lab (tab F) z p.
(* SPEC: set B exceeds set A by more than the fraction t, compared in double precision *)
Definition exceeds (t : flt) (A B : nat -> Prop) : Prop :=
  exists n k, card_is A n /\ card_is B k /\ fgt (f64_growth k n) (f64_of_f32 t) = true.
(* SPEC: set B is A or exceeds it by at most the fraction t *)
Definition within (t : flt) (A B : nat -> Prop) : Prop :=
  (forall p, A p <-> B p) \/
  exists n k, card_is A n /\ card_is B k /\ fgt (f64_growth k n) (f64_of_f32 t) = false.
(* SPEC: the fraction t is below 1 *)
Definition below1 (t : flt) : Prop := fgt (f64_of_int 1) (f64_of_f32 t) = true.

Section rep.
Context (V : view) (lab : nat -> rref) (F : forest) (P : rparam) (fuel : nat) (m : mode) (s0 : rst).
Context (HR : ready V lab F P fuel m s0).
Notation pix := (region_pixels V lab (tab F)).
Let HI := rd_input _ _ _ _ _ _ _ HR.

Lemma run_recognize b : exists s, recognize fuel m P b s0 = Some (s, reported F P m, length (reported F P m),
  size_buffer b (length (CL F (flags F P m)))) /\ flagged F P (final F P m) s.
Proof. pose proof HR as [_ H1 H2 H3 H4 H5]. by apply (recognize_ok V lab F HI P H1). Qed.

Lemma reported_live z : z ∈ reported F P m -> live0 F z /\ flags F P m z = 0.
Proof. intros Hz. apply (elem_reported V lab F HI P m z) in Hz. tauto. Qed.

(* C12 *)
Lemma limits_ok b : exists s l n b', recognize fuel m P b s0 = Some (s, l, n, b') /\
  forall z, z ∈ l -> in_limits P (tab F) z /\ exists p, vw_in V p /\ ~ pix z p.
Proof.
  destruct (run_recognize b) as (s & E & _). eexists s, _, _, _. split; [exact E|]. intros z Hz.
  destruct (reported_live z Hz) as [Hl Hf]. destruct (flags_limits V lab F HI P m z Hl Hf) as [Hlim _]. split; auto.
  destruct Hlim as (_ & _ & _ & _ & t & Ht). pose proof (input_start V lab F HI) as H0.
  apply (sparent_RP F H0 z t) in Ht as [_ Ht]. destruct (live0_RP F H0 z t Hl Ht) as [Hlt Hg].
  destruct (pix_own V lab F HI t Hlt) as (p & Hp & Hgp). exists p. split; [apply Hp|].
  intros Hc. pose proof (pix_gray V lab F HI z p Hl Hc). lia.
Qed.

(* C16 *)
Lemma count_ok b : exists s l n b', recognize fuel m P b s0 = Some (s, l, n, b') /\ n = length l /\ NoDup l /\
  forall z, z ∈ l <-> exists a, sget s z = Some a /\ g_flag a = 2.
Proof.
  destruct (run_recognize b) as (s & E & Hs). eexists s, _, _, _. split; [exact E|]. split; auto. split.
  - apply NoDup_ListNoDup, List.NoDup_filter, NoDup_ListNoDup. by eapply CL_NoDup.
  - intros z. by apply (reported_flags V lab F HI P m s z).
Qed.

Lemma pix_size z : live0 F z -> card_is (pix z) (size0 F z).
Proof. by apply (pix_card V lab F HI). Qed.

(* C15 *)
Lemma apart_ok b : below1 (p_dup P) -> exists s l n b', recognize fuel m P b s0 = Some (s, l, n, b') /\
  forall x y, x ∈ l -> y ∈ l -> x <> y -> (forall p, pix x p -> pix y p) -> exceeds (p_dup P) (pix x) (pix y).
Proof.
  intros Hb. destruct (run_recognize b) as (s & E & _). eexists s, _, _, _. split; [exact E|].
  intros x y Hx Hy Hne Hsub. destruct (reported_live x Hx) as [Lx Fx]. destruct (reported_live y Hy) as [Ly Fy].
  pose proof (anc_card V lab F HI x y Lx Ly Hsub Hne) as Hs.
  exists (size0 F x), (size0 F y). split; [by apply pix_size|]. split; [by apply pix_size|].
  assert (forall z, live0 F z -> flags F P m z = 0 -> (p_min P <= Z.of_nat (size0 F z) <= p_max P)%Z) as Hlim.
  { intros z Hz Hf. by apply (flags_limits V lab F HI P m z Hz Hf). }
  apply (elem_reported V lab F HI P m) in Hx, Hy. destruct Hx as (_ & _ & Hx). destruct Hy as (_ & _ & Hy).
  assert (fge fzero (p_dup P) = true -> fgt (f64_growth (size0 F y) (size0 F x)) (f64_of_f32 (p_dup P)) = true) as Hneg.
  { intros Hn. apply growth_pos; auto; [by eapply size_pos| |by eapply size_small].
    clear -Hs HI Lx. induction Hs as [x y Hxy|x z y Hxz _ IH]; [by eapply size_lt|].
    destruct (live0_RP F (input_start V lab F HI) x z Lx Hxz) as [Lz _].
    pose proof (size_lt V lab F HI x z Lx Hxz). specialize (IH Lz). lia. }
  destruct (final_cases F P m) as [Ef|[Hd _]].
  - rewrite Ef in Hx, Hy.
    pose proof (bi_vv _ _ _ _ _ _ _ (keep_binv V lab F HI P (flags F P m) (flags_le F P m) Hlim Hb) x y Hx Hy Hs) as Hv.
    unfold nearf in Hv. by apply negb_false_iff in Hv.
  - apply Hneg. by apply not_gt_zero.
Qed.
Lemma covered_ok b : exists s l b1 s' l' n b2,
  candidates fuel m P b s0 = Some (s, l, b1) /\ recognize fuel m P b s0 = Some (s', l', n, b2) /\
  (forall z, z ∈ l' -> z ∈ l) /\
  forall z, z ∈ l -> z ∉ l' -> exists c r, c ∈ l /\ r ∈ l' /\
    (forall p, pix c p -> pix z p) /\ (forall p, pix c p -> pix r p) /\
    ((forall p, pix z p -> pix r p) \/ (forall p, pix r p -> pix z p)) /\
    within (p_dup P) (pix c) (pix z) /\ within (p_dup P) (pix c) (pix r).
Proof.
  pose proof HR as [_ H1 H2 H3 H4 H5].
  destruct (candidates_ok V lab F HI P H1 fuel m b s0 H2 H3 H4 H5) as (s & l & b' & E & (_ & -> & _) & _).
  destruct (run_recognize b) as (s' & E' & _). eexists s, _, _, s', _, _, _. split; [exact E|]. split; [exact E'|].
  assert (forall z, live0 F z -> flags F P m z = 0 -> (p_min P <= Z.of_nat (size0 F z) <= p_max P)%Z) as Hlim.
  { intros z Hz Hf. by apply (flags_limits V lab F HI P m z Hz Hf). }
  split. { intros z Hz. apply (elem_CL V lab F HI P). by apply reported_live. }
  intros z Hz Hn. pose proof Hz as [Lz Fz]%(elem_CL V lab F HI P).
  assert (forall x y, live0 F x -> rtc (up (RP F)) x y -> forall p, pix x p -> pix y p) as Hsub.
  { intros x y Hx Hxy p. by apply (pix_mono V lab F HI x y p Hx). }
  destruct (final_cases F P m) as [Ef|[_ Ef]].
  - pose proof (keep_inv V lab F HI P (flags F P m) (flags_le F P m) Hlim) as HA.
    destruct (keep_flags V lab F HI P (flags F P m) (flags_le F P m) Hlim z Lz Fz) as [K|K].
    2: { exfalso. apply Hn. apply (elem_reported V lab F HI P m). rewrite Ef. auto. }
    destruct (ai_cov _ _ _ _ _ _ _ HA z Lz Fz K) as (c & r & Lc & Lr & Fc & Kr & Hcz & Hcr & Hzr & Nz & Nr).
    destruct (ai_L _ _ _ _ _ _ _ HA r Kr) as [_ Fr].
    exists c, r. split; [by apply (elem_CL V lab F HI P)|]. split.
    { apply (elem_reported V lab F HI P m). by rewrite Ef. }
    split; [by apply Hsub|]. split; [by apply Hsub|]. split.
    { destruct Hzr; [left|right]; by apply Hsub. }
    assert (forall u, live0 F u -> u = c \/ nearf P (size0 F c) (size0 F u) = true -> within (p_dup P) (pix c) (pix u)) as HW.
    { intros u Hu [->|Hnear]; [by left|]. right. exists (size0 F c), (size0 F u). split; [by apply pix_size|].
      split; [by apply pix_size|]. unfold nearf in Hnear. by apply negb_true_iff in Hnear. }
    auto.
  - exfalso. apply Hn. apply (elem_reported V lab F HI P m). rewrite Ef. rewrite decide_True by done. auto.
Qed.

(* C30 *)
Lemma extremal_ok b : exists s l n b', recognize fuel m P b s0 = Some (s, l, n, b') /\
  (forall z, z ∈ l -> exists a, tab F z = Some a /\ extremal V (v_gray a) (pix z) /\
     (forall p, pix z p -> vw_in V p /\ vw_gray V p <= v_gray a) /\
     (forall p q, pix z p -> vw_in V q -> vw_adj V p q -> ~ pix z q -> v_gray a < vw_gray V q)) /\
  (forall x y, x ∈ l -> y ∈ l ->
     (forall p, pix x p -> pix y p) \/ (forall p, pix y p -> pix x p) \/ (forall p, ~ (pix x p /\ pix y p))).
Proof.
  destruct (run_recognize b) as (s & E & _). eexists s, _, _, _. split; [exact E|]. split.
  - intros z Hz. destruct (reported_live z Hz) as [Lz _]. destruct (live_get F z Lz) as (a & Ha & Hla & Eg & _).
    exists a. split; auto. destruct (tree_extremal V lab (tab F) (ri_sym _ _ _ HI) (ri_tree _ _ _ HI)) as (Hx & _).
    split; [by apply Hx|]. split.
    + intros p Hp. split; [apply Hp|]. rewrite Eg. by apply (pix_gray V lab F HI z p Lz).
    + intros p q Hp Hq Hadj Hnq. destruct (Nat.le_gt_cases (vw_gray V q) (v_gray a)) as [Hle|]; auto.
      exfalso. apply Hnq. apply (pix_comp V lab F HI z p q Lz Hp).
      pose proof (pix_gray V lab F HI z p Lz Hp) as Hgp. rewrite Eg in Hle.
      split; [apply Hp|]. split; auto. split; auto. split; auto.
      apply rtc_once. split; [apply Hp|]. auto.
  - intros x y Hx Hy. destruct (reported_live x Hx) as [Lx _]. destruct (reported_live y Hy) as [Ly _].
    assert (forall x y, live0 F x -> live0 F y -> gray0 F x <= gray0 F y ->
      (forall p, pix x p -> pix y p) \/ (forall p, ~ (pix x p /\ pix y p))) as HH.
    { clear x y Hx Hy Lx Ly. intros x y Lx Ly Hg.
      destruct (pix_own V lab F HI x Lx) as (p0 & Hp0 & _).
      destruct (ri_small _ _ _ HI) as (N & (ps & _ & Hps & _) & _).
      assert (forall p, pix x p -> pix y p -> forall q, pix x q -> pix y q) as Hall.
      { intros p Hp Hpy q Hq. apply (pix_comp V lab F HI y p q Ly Hpy).
        apply (pix_comp V lab F HI x p q Lx Hp) in Hq. destruct Hq as (A1 & A2 & A3 & A4 & A5).
        split; auto. split; auto. split; [lia|]. split; [lia|]. eapply rtc_subrel; [|exact A5].
        intros u w (B1 & B2 & B3 & B4 & B5). split; auto. split; auto. split; auto. split; lia. }
      destruct (pix_comp V lab F HI x p0 p0 Lx Hp0) as [_ _].
      destruct (live_get F y Ly) as (ay & Hay & _). 
      assert (forall p, pix y p \/ ~ pix y p) as Hdec.
      { intros p. destruct (pix_card V lab F HI y Ly) as (ly & _ & Hly & _).
        destruct (decide (p ∈ ly)) as [Hin|Hni]; [left; by apply Hly|right; intros Hc; apply Hni; by apply Hly]. }
      destruct (Hdec p0) as [Hy0|Hy0].
      - left. by apply (Hall p0).
      - right. intros p [Hpx Hpy]. apply Hy0. by apply (Hall p Hpx Hpy). }
    destruct (Nat.le_ge_cases (gray0 F x) (gray0 F y)) as [Hg|Hg].
    + destruct (HH x y Lx Ly Hg); auto.
    + destruct (HH y x Ly Lx Hg) as [?|Hd]; auto. right. right. intros p [? ?]. by apply (Hd p).
Qed.
End rep.

(* ---------- two runs ---------- *)
(* SPEC: two parallel modes with the same number of workers, or two serial ones *)
Definition same_kind (m1 m2 : mode) : Prop :=
  match m1, m2 with
  | One, One | Four _ _, Four _ _ | ThirtyTwo _, ThirtyTwo _ => True
  | _, _ => False
  end.
(* SPEC: the surviving region that is the parent of z once merged regions are skipped *)
Definition parent_in (fuel : nat) (s : rst) (z : rref) : option (option rref) :=
  match sget s z with Some a => real fuel (s_F s) (g_par a) | None => None end.

Lemma real_sim F0 F' : (forall x a0, fget F0 x = Some a0 -> exists a, fget F' x = Some a /\
    (g_flag a0 = 3 -> a = a0) /\ (g_flag a0 <> 3 -> g_flag a <> 3)) ->
  forall n o r, real n F0 o = Some r -> real n F' o = Some r.
Proof.
  intros HS. induction n as [|n IH]; intros o r; [done|]. cbn [real]. destruct o as [x|]; [|done].
  destruct (fget F0 x) as [a0|] eqn:Ha0; [|done]. destruct (HS x a0 Ha0) as (a & -> & H3 & Hn3).
  destruct (Nat.eqb_spec (g_flag a0) 3) as [E|E].
  - rewrite (H3 E), E. cbn. apply IH.
  - destruct (Nat.eqb_spec (g_flag a) 3) as [E2|]; [|done]. by apply Hn3 in E.
Qed.

Lemma parent_sim V lab F P fl s z : recog_input V lab F -> flagged F P fl s -> live0 F z ->
  parent_in (S (nregs F)) s z = Some (RP F z).
Proof.
  intros HI [HS _] Hz. pose proof (input_start V lab F HI) as H0. unfold parent_in, sget.
  destruct (sim_live F H0 (s_F s) z HS Hz) as (a & -> & _ & _ & _ & _ & Hst & Hrp & _).
  eapply (real_sim F). { intros x a0 Ha0. destruct (sm_reg _ _ HS x a0 Ha0) as (a' & ? & _ & _ & _ & ? & S5). exists a'. naive_solver. }
  unfold rp in Hrp. destruct (g_par a) as [t|] eqn:Ep.
  - destruct (Hst t eq_refl) as [c Hc]. destruct (real_ok F t c (S (nregs F)) (rs_wf _ H0) Hc) as (y & d & E & _); [lia|].
    rewrite E in Hrp. congruence.
  - cbn in *. congruence.
Qed.

Lemma kind_flags F P m1 m2 : same_kind m1 m2 -> flags F P m1 = flags F P m2 /\ final F P m1 = final F P m2 /\ reported F P m1 = reported F P m2.
Proof. by destruct m1, m2. Qed.

(* C11 *)
Lemma schedule_free V lab F P fuel m1 m2 s01 s02 b : ready V lab F P fuel m1 s01 -> ready V lab F P fuel m2 s02 ->
  same_kind m1 m2 ->
  exists s1 s2 l b', candidates fuel m1 P b s01 = Some (s1, l, b') /\ candidates fuel m2 P b s02 = Some (s2, l, b') /\
    (forall z a, alive F z a -> exists a1 a2, sget s1 z = Some a1 /\ sget s2 z = Some a2 /\ g_flag a1 = g_flag a2 /\
       (computes P m1 -> s_var s1 z = s_var s2 z) /\
       parent_in (S (nregs F)) s1 z = parent_in (S (nregs F)) s2 z /\
       forall t, parent_in (S (nregs F)) s1 z = Some (Some t) <-> sparent (tab F) z t) /\
  exists s1' s2' l' n' b2', recognize fuel m1 P b s01 = Some (s1', l', n', b2') /\
    recognize fuel m2 P b s02 = Some (s2', l', n', b2') /\
    (forall z a, alive F z a -> exists a1 a2, sget s1' z = Some a1 /\ sget s2' z = Some a2 /\ g_flag a1 = g_flag a2).
Proof.
  intros HR1 HR2 Hk. destruct (kind_flags F P m1 m2 Hk) as (Ef & En & Er).
  pose proof HR1 as [HI H1 H2 H3 H4 H5]. pose proof HR2 as [_ _ G2 G3 G4 G5].
  destruct (candidates_ok V lab F HI P H1 fuel m1 b s01 H2 H3 H4 H5) as (s1 & l1 & b1 & E1 & (F1 & -> & ->) & V1).
  destruct (candidates_ok V lab F HI P H1 fuel m2 b s02 G2 G3 G4 G5) as (s2 & l2 & b2 & E2 & (F2 & -> & ->) & V2).
  eexists s1, s2, _, _. split; [exact E1|]. rewrite Ef. split; [exact E2|]. split.
  - intros z a Ha. destruct (alive_live F z a Ha) as (Hz & _ & _).
    destruct (fd_reg _ _ _ _ F1 z Hz) as (a1 & A1 & A2 & _). destruct (fd_reg _ _ _ _ F2 z Hz) as (a2 & B1 & B2 & _).
    exists a1, a2. split; auto. split; auto. split; [congruence|]. split.
    { intros Hc. rewrite V1, V2; auto; apply has_vars_computes; auto. by destruct m1, m2. }
    rewrite (parent_sim V lab F P _ s1 z HI F1 Hz), (parent_sim V lab F P _ s2 z HI F2 Hz). split; auto.
    intros t. rewrite (sparent_RP F (input_start V lab F HI) z t). split; [intros [= E]; split; auto; exact Hz|].
    intros [_ ->]. done.
  - destruct (run_recognize V lab F P fuel m1 s01 HR1 b) as (s1' & R1 & K1).
    destruct (run_recognize V lab F P fuel m2 s02 HR2 b) as (s2' & R2 & K2).
    eexists s1', s2', _, _, _. split; [exact R1|]. rewrite Er, Ef. split; [exact R2|].
    intros z a Ha. destruct (alive_live F z a Ha) as (Hz & _ & _).
    destruct (fd_reg _ _ _ _ K1 z Hz) as (a1 & A1 & A2 & _). destruct (fd_reg _ _ _ _ K2 z Hz) as (a2 & B1 & B2 & _).
    exists a1, a2. split; auto. split; auto. congruence.
Qed.

(* C10: the versions agree on one tree *)
Lemma variants_agree V lab F P fuel m1 m2 s01 s02 b : ready V lab F P fuel m1 s01 -> ready V lab F P fuel m2 s02 -> sane P ->
  exists s1 s2 l b', candidates fuel m1 P b s01 = Some (s1, l, b') /\ candidates fuel m2 P b s02 = Some (s2, l, b').
Proof.
  intros HR1 HR2 Hs. pose proof HR1 as [HI H1 H2 H3 H4 H5]. pose proof HR2 as [_ _ G2 G3 G4 G5].
  destruct (candidates_ok V lab F HI P H1 fuel m1 b s01 H2 H3 H4 H5) as (s1 & l1 & b1 & E1 & (F1 & -> & ->) & _).
  destruct (candidates_ok V lab F HI P H1 fuel m2 b s02 G2 G3 G4 G5) as (s2 & l2 & b2 & E2 & (F2 & -> & ->) & _).
  assert (CL F (flags F P m1) = CL F (flags F P m2)) as EC.
  { apply (CL_ext F). intros z Hz. apply (same_flags V lab lab F F HI HI P m1 m2 z z Hs). split; [done|]. split; done. }
  eexists s1, s2, _, _. split; [exact E1|]. by rewrite EC.
Qed.

(* C29 *)
Lemma threads_free V lab1 lab2 F1 F2 P fuel m1 m2 s01 s02 b1 b2 :
  ready V lab1 F1 P fuel m1 s01 -> ready V lab2 F2 P fuel m2 s02 -> sane P -> below1 (p_dup P) ->
  exists s1 l1 n1 c1 s2 l2 n2 c2,
    recognize fuel m1 P b1 s01 = Some (s1, l1, n1, c1) /\ recognize fuel m2 P b2 s02 = Some (s2, l2, n2, c2) /\
    n1 = n2 /\ forall S, reports V lab1 F1 l1 S <-> reports V lab2 F2 l2 S.
Proof.
  intros HR1 HR2 Hs Hb. pose proof (rd_input _ _ _ _ _ _ _ HR1) as HI1. pose proof (rd_input _ _ _ _ _ _ _ HR2) as HI2.
  destruct (run_recognize V lab1 F1 P fuel m1 s01 HR1 b1) as (s1 & R1 & _).
  destruct (run_recognize V lab2 F2 P fuel m2 s02 HR2 b2) as (s2 & R2 & _).
  eexists s1, _, _, _, s2, _, _, _. split; [exact R1|]. split; [exact R2|].
  assert (forall labA FA labB FB mA mB, recog_input V labA FA -> recog_input V labB FB -> forall x, x ∈ reported FA P mA ->
    exists y, y ∈ reported FB P mB /\ same V labA FA labB FB x y) as HH.
  { intros labA FA labB FB mA mB HA HB x Hx. assert (live0 FA x) as Hl by (by apply (elem_reported V labA FA HA P mA) in Hx as (? & _)).
    destruct (same_total V labA labB FA FB HA HB x Hl) as (y & Hy). exists y. split; auto.
    by apply (same_reported V labA labB FA FB HA HB P mA mB x y). }
  split.
  - assert (forall labA FA labB FB mA mB, recog_input V labA FA -> recog_input V labB FB ->
      length (reported FA P mA) <= length (reported FB P mB)) as Hle.
    { intros labA FA labB FB mA mB HA HB.
      assert (NoDup (reported FA P mA)) as HN.
      { apply NoDup_ListNoDup, List.NoDup_filter, NoDup_ListNoDup. by eapply CL_NoDup. }
      assert (exists ys, Forall2 (same V labA FA labB FB) (reported FA P mA) ys /\ forall y, y ∈ ys -> y ∈ reported FB P mB) as (ys & H2 & Hin).
      { pose proof (HH labA FA labB FB mA mB HA HB) as Hx. revert Hx. generalize (reported FA P mA). intros l.
        induction l as [|x l IH]; intros Hx; [exists []; split; [constructor|by intros y Hy%elem_of_nil]|].
        destruct (Hx x) as (y & Hy & Hxy); [by left|]. destruct IH as (ys & I1 & I2). { intros u Hu. apply Hx. by right. }
        exists (y :: ys). split; [by constructor|]. intros u [->|Hu]%elem_of_cons; auto. }
      assert (NoDup ys) as HNy.
      { clear Hin. induction H2 as [|x y l ys' Hxy H2 IH]; [constructor|]. apply NoDup_cons in HN as [Hx HN].
        apply NoDup_cons. split; [|by apply IH]. intros Hy. apply Hx.
        apply elem_of_list_lookup in Hy as (i & Hi). destruct (Forall2_lookup_r _ _ _ _ _ H2 Hi) as (x' & Hx' & Hs').
        assert (x = x') as ->; [|by eapply elem_of_list_lookup_2].
        by apply (same_fun V labA labB FA FB HA HB x y x' y Hxy Hs'). }
      rewrite (Forall2_length _ _ _ H2). apply submseteq_length. apply NoDup_submseteq; auto. }
    apply Nat.le_antisymm; eauto.
  - intros S. split; intros (x & Hx & HS).
    + destruct (HH lab1 F1 lab2 F2 m1 m2 HI1 HI2 x Hx) as (y & Hy & _ & _ & Hp). exists y. split; auto. intros p. by rewrite HS, Hp.
    + destruct (HH lab2 F2 lab1 F1 m2 m1 HI2 HI1 x Hx) as (y & Hy & _ & _ & Hp). exists y. split; auto. intros p. by rewrite HS, Hp.
Qed.

(* C42: with a similarity of at least zero the heaps are left where they were *)
Lemma heaps_kept V lab F P fuel sched caps s0 b : ready V lab F P fuel (Four sched caps) s0 -> fge (p_nms P) fzero = true ->
  exists s l n b', recognize_4 fuel P sched caps b s0 = Some (s, l, n, b', caps).
Proof.
  intros HR Hn. pose proof HR as [HI H1 H2 (M1 & M2 & M3 & M4) H4 H5].
  destruct (run_recognize V lab F P fuel _ s0 HR b) as (s & E & _). cbn [recognize] in E.
  destruct (cand_4 V lab F HI P H1 sched caps b s0 H4 M1 H5 M2 M3) as (s1 & l1 & b1 & caps' & E1 & _ & _ & Hc).
  { intros i c Hi. unfold len0. destruct (F !! i) as [l|] eqn:El; [by eapply M4|]. lia. }
  rewrite (Hc Hn) in E1. unfold recognize_4 in *. rewrite E1 in E |- *.
  destruct (par_dedup fuel P s1 l1) as [[[s3 l'] n]|]; [|done]. eauto.
Qed.
