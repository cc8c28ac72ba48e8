(* Consequences of the joining proofs in the form of the properties. *)
From stdpp Require Import sorting relations functions list.
From Coq Require Import NArith.
From Verif Require Import Spec TreeSpec TreeFacts JoinMath FloodModel FloodCorrect ConnectModel ConnectProof.

(* SPEC: the situation in which regions may be joined: F with pixel labels lab is
   the component tree of the view, whose N pixels fit an i32, with byte levels *)
Record joinable (V : view) (lab : nat -> rref) (F : forest) : Prop := {
  jn_sym : vsym V;
  jn_tree : ctree V lab (tab F);
  jn_small : exists N, card_is (vw_in V) N /\ (N.of_nat N < 2 ^ 31)%N;
  jn_byte : bounded F
}.

(* looking up and joining the regions x and y, as the seam loops do
   (img_fast_mser_v2.cpp:567-573,591-597) *)
Definition join_regions (fuel : nat) (F : forest) (x y : rref) : option forest :=
  match real fuel F (Some x), real fuel F (Some y) with
  | Some a, Some b => connect fuel F a b
  | _, _ => None
  end.

Lemma join_regions_ok V lab F x y p q ax ay fuel : joinable V lab F -> nregs F + 514 < fuel ->
  fget F x = Some ax -> fget F y = Some ay -> vw_in V p -> vw_in V q ->
  (forall r, real_of (tab F) x r -> real_of (tab F) (lab p) r) ->
  (forall r, real_of (tab F) y r -> real_of (tab F) (lab q) r) ->
  exists F', join_regions fuel F x y = Some F' /\ frame F F' /\ joinable (add_edge V p q) lab F'.
Proof.
  intros [HS HT (N & HN & Hsm) HB] Hf Hx Hy Hp Hq Hxp Hyq. pose proof (ctree_wf _ _ _ HT) as HW.
  assert (forall d, g_flag d <> 3 -> v_live (vr d) = true) as Hlv.
  { intros d Hd. simpl. destruct (Nat.eqb_spec (g_flag d) 3); done. }
  unfold join_regions.
  destruct (real_ok F x ax fuel HW Hx) as (a & da & -> & A1 & A2 & A3 & A4 & _); [lia|].
  destruct (real_ok F y ay fuel HW Hy) as (b & db & -> & B1 & B2 & B3 & B4 & _); [lia|].
  destruct (connect_ok V lab F N q p a b fuel) as (F1 & E & HF1 & HT1); auto.
  { apply Hxp. exists (vr ax), (vr da). split; [by apply tab_get|]. split; auto. split; [by apply tab_get|]. auto. }
  { apply Hyq. exists (vr ay), (vr db). split; [by apply tab_get|]. split; auto. split; [by apply tab_get|]. auto. }
  exists F1. split; auto. split; auto. constructor.
  - by apply vsym_add.
  - eapply ctree_ext; [exact HT1| | |]; try done. intros u w _ _. cbn. tauto.
  - exists N. auto.
  - by eapply frame_bounded.
Qed.

Lemma join_pixels V lab F p q fuel : joinable V lab F -> nregs F + 514 < fuel -> vw_in V p -> vw_in V q ->
  exists F', join_regions fuel F (lab p) (lab q) = Some F' /\ frame F F' /\ joinable (add_edge V p q) lab F'.
Proof.
  intros HJ Hf Hp Hq. pose proof HJ as [HS HT _ _].
  destruct (ct_lab _ _ _ HT p Hp) as (vp & Hvp & _). destruct (get_tab _ _ _ Hvp) as (ap & Hap & _).
  destruct (ct_lab _ _ _ HT q Hq) as (vq & Hvq & _). destruct (get_tab _ _ _ Hvq) as (aq & Haq & _).
  eapply join_regions_ok; eauto.
Qed.

(* every stored region stands for the label of some pixel *)
Lemma region_pixel V lab F x a : ctree V lab (tab F) -> fget F x = Some a ->
  exists p, vw_in V p /\ forall r, real_of (tab F) x r -> real_of (tab F) (lab p) r.
Proof.
  intros HT Ha. pose proof (ctree_wf _ _ _ HT) as HW.
  destruct (real_exists _ x (vr a) HW (tab_get _ _ _ Ha)) as (r & b & R1 & R2 & R3 & R4 & R5).
  destruct (ct_own _ _ _ HT r b R2 R3) as (p & Hp & Hg & Hu). exists p. split; auto.
  intros r' (c & d & C1 & C2 & C3 & C4 & C5).
  assert (r' = r) as ->.
  { rewrite (tab_get _ _ _ Ha) in C1. injection C1 as <-.
    destruct (vunder_linear _ _ _ _ C2 R1) as [H|H].
    - destruct (vunder_live _ _ _ _ _ HW C3 R2 C4 H) as [?|?]; auto. lia.
    - destruct (vunder_live _ _ _ _ _ HW R2 C3 R3 H) as [?|?]; auto. lia. }
  destruct (ct_lab _ _ _ HT p Hp) as (v & Hv & Hgv). exists v, b. split; auto. split; auto. split; auto.
  split; auto. congruence.
Qed.

(* SPEC: joining the region pairs of a list in order *)
Fixpoint join_all (fuel : nat) (F : forest) (l : list (rref * rref)) : option forest :=
  match l with
  | [] => Some F
  | (x, y) :: rest =>
      match join_regions fuel F x y with
      | Some F' => join_all fuel F' rest
      | None => None
      end
  end.

(* SPEC: following parents from r ends at a region without parent, and leads to
   exactly one surviving region of the level of r *)
Definition resolves (F : forest) (r : rref) (a : greg) : Prop :=
  (exists t b, vunder (tab F) r t /\ fget F t = Some b /\ g_par b = None) /\
  (exists s b, (vunder (tab F) r s /\ fget F s = Some b /\ g_flag b <> 3 /\ g_gray b = g_gray a) /\
     forall s' b', vunder (tab F) r s' -> fget F s' = Some b' -> g_flag b' <> 3 -> g_gray b' = g_gray a -> s' = s).

Lemma joinable_resolves V lab F : joinable V lab F -> forall r a, fget F r = Some a -> resolves F r a.
Proof.
  intros [HS HT _ _] r a Ha. pose proof (ctree_wf _ _ _ HT) as HW. split.
  - destruct (ct_acyc _ _ _ HT r (vr a) (tab_get _ _ _ Ha)) as (t & v & H1 & H2 & H3).
    destruct (get_tab _ _ _ H2) as (b & Hb & ->). exists t, b. auto.
  - destruct (real_exists _ r (vr a) HW (tab_get _ _ _ Ha)) as (s & v & R1 & R2 & R3 & R4 & R5).
    destruct (get_tab _ _ _ R2) as (b & Hb & ->). exists s, b. simpl in R3, R4. split.
    + split; auto. split; auto. split; auto. by apply live_flag.
    + intros s' b' H1 H2 H3 H4. pose proof (tab_get _ _ _ H2) as H2'.
      assert (v_live (vr b') = true) as Hl. { simpl. destruct (Nat.eqb_spec (g_flag b') 3); done. }
      destruct (vunder_linear _ _ _ _ H1 R1) as [H|H].
      * destruct (vunder_live _ _ _ _ _ HW H2' R2 Hl H) as [?|Hlt]; auto. simpl in Hlt. lia.
      * destruct (vunder_live _ _ _ _ _ HW R2 H2' R3 H) as [?|Hlt]; auto. simpl in Hlt. lia.
Qed.

Lemma join_all_ok V lab F l fuel : joinable V lab F -> nregs F + 514 < fuel ->
  Forall (fun xy => is_Some (fget F (fst xy)) /\ is_Some (fget F (snd xy))) l ->
  exists F' V', join_all fuel F l = Some F' /\ frame F F' /\ joinable V' lab F'.
Proof.
  revert V F. induction l as [|[x y] l IH]; intros V F HJ Hf Hl.
  - exists F, V. split; auto. split; [apply frame_refl|done].
  - apply Forall_cons in Hl as [[[ax Hx] [ay Hy]] Hl]. cbn [fst snd] in *.
    destruct (region_pixel V lab F x ax (jn_tree _ _ _ HJ) Hx) as (p & Hp & Hxp).
    destruct (region_pixel V lab F y ay (jn_tree _ _ _ HJ) Hy) as (q & Hq & Hyq).
    destruct (join_regions_ok V lab F x y p q ax ay fuel) as (F1 & E & HF & HJ1); auto.
    cbn [join_all]. rewrite E. destruct (IH _ F1 HJ1) as (F' & V' & E' & HF' & HJ').
    + by rewrite (frame_nregs _ _ HF).
    + eapply Forall_impl; [exact Hl|]. intros [u w] [[u' Hu] [w' Hw]]. cbn [fst snd] in *.
      destruct (fr_reg _ _ HF u u' Hu) as (u2 & ? & _). destruct (fr_reg _ _ HF w w' Hw) as (w2 & ? & _). eauto.
    + exists F', V'. split; auto. split; auto. by eapply frame_trans.
Qed.

Lemma join_all_resolves V lab F l fuel : joinable V lab F -> nregs F + 514 < fuel ->
  Forall (fun xy => is_Some (fget F (fst xy)) /\ is_Some (fget F (snd xy))) l ->
  exists F', join_all fuel F l = Some F' /\ frame F F' /\ forall r a, fget F' r = Some a -> resolves F' r a.
Proof.
  intros HJ Hf Hl. destruct (join_all_ok V lab F l fuel HJ Hf Hl) as (F' & V' & E & HF & HJ').
  exists F'. split; auto. split; auto. by eapply joinable_resolves.
Qed.

(* ---------- the regions of a tree are the extremal regions ---------- *)
(* SPEC: S is a connected component of the pixels of level at most g and has a
   pixel of level g *)
Definition extremal (V : view) (g : nat) (S : nat -> Prop) : Prop :=
  exists p0, vw_in V p0 /\ vw_gray V p0 = g /\ forall p, S p <-> vconn V g p0 p.

(* SPEC: the pixels below a region *)
Definition region_pixels {I} (V : view) (lab : nat -> I) (T : I -> option (vreg I)) (r : I) (p : nat) : Prop :=
  vw_in V p /\ vunder T (lab p) r.

Lemma tree_extremal {I} `{EqDecision I} V (lab : nat -> I) T : vsym V -> ctree V lab T ->
  (forall r a, T r = Some a -> v_live a = true -> extremal V (v_gray a) (region_pixels V lab T r)) /\
  (forall g S, extremal V g S -> exists r a, T r = Some a /\ v_live a = true /\ v_gray a = g /\
     forall p, S p <-> region_pixels V lab T r p) /\
  (forall r a r' a', T r = Some a -> v_live a = true -> T r' = Some a' -> v_live a' = true ->
     (forall p, region_pixels V lab T r p <-> region_pixels V lab T r' p) -> r = r') /\
  (forall r a r' a', T r = Some a -> v_live a = true -> T r' = Some a' -> v_live a' = true ->
     vunder T r r' <-> (forall p, region_pixels V lab T r p -> region_pixels V lab T r' p)).
Proof.
  intros HS HT. assert (wf T) as HW by (destruct HT; by constructor).
  assert (forall r a r' a', T r = Some a -> v_live a = true -> T r' = Some a' -> v_live a' = true ->
     (forall p, region_pixels V lab T r p -> region_pixels V lab T r' p) -> vunder T r r') as Hsub.
  { intros r a r' a' Hr Hl Hr' Hl' Hs. destruct (ct_own _ _ _ HT r a Hr Hl) as (p & Hp & Hg & Hu).
    destruct (Hs p (conj Hp Hu)) as [_ Hu'].
    destruct (vunder_linear _ _ _ _ Hu Hu') as [?|Hrr]; auto.
    destruct (vunder_live _ _ _ _ _ HW Hr' Hr Hl' Hrr) as [->|Hlt]; [apply rtc_refl|].
    (* r' strictly below r: a pixel of the level of r is not below r' *)
    destruct (ct_lab _ _ _ HT p Hp) as (b & Hb & Hgb).
    pose proof (vunder_gray _ _ _ _ _ HW Hb Hr' Hu'). lia. }
  split; [|split; [|split]].
  - intros r a Hr Hl. destruct (ct_own _ _ _ HT r a Hr Hl) as (p0 & Hp0 & Hg & Hu).
    exists p0. split; auto. split; auto. intros p. split.
    + intros [Hp Hup]. by apply (ct_comp _ _ _ HT r a p0 p).
    + intros Hc. pose proof Hc as (_ & Hp & _). split; auto. by apply (ct_comp _ _ _ HT r a p0 p).
  - intros g S (p0 & Hp0 & Hg & HSp). destruct (ct_lab _ _ _ HT p0 Hp0) as (b & Hb & Hgb).
    destruct (real_exists _ _ b HW Hb) as (r & a & R1 & R2 & R3 & R4 & R5).
    exists r, a. split; auto. split; auto. split; [congruence|]. intros p. rewrite HSp. split.
    + intros Hc. pose proof Hc as (_ & Hp & _). split; auto. apply (ct_comp _ _ _ HT r a p0 p); auto.
      by rewrite R4, Hgb, Hg.
    + intros [Hp Hu]. rewrite <-Hg, <-Hgb, <-R4. by apply (ct_comp _ _ _ HT r a p0 p).
  - intros r a r' a' Hr Hl Hr' Hl' Hs. eapply (vunder_antisym T r r' a); eauto; eapply Hsub; eauto; firstorder.
  - intros r a r' a' Hr Hl Hr' Hl'. split; [|by eapply Hsub]. intros Hu p [Hp Hup]. split; auto. by etrans.
Qed.
