(* connect of Fast MSER V1 turns the component tree and the pixel lists of a view into
   those of the view with one more adjacency. *)
From stdpp Require Import sorting relations functions list.
From Coq Require Import ZArith.
From Verif Require Import Spec TreeSpec TreeFacts JoinMath FloodModel V1JoinModel V1Heap V1Lists V1Cut.
Local Open Scope nat_scope.

(* the region table read as stored regions, with sizes from outside *)
Definition wv (sz : rref -> nat) (r : rref) (a : wreg) : vreg rref :=
  VReg (w_gray a) (negb (w_flag a =? 3)) (sz r) (w_par a).
Definition tz (R : list (list wreg)) (sz : rref -> nat) (r : rref) : option (vreg rref) := wv sz r <$> get2 R r.

Lemma tz_get R sz r a : get2 R r = Some a -> tz R sz r = Some (wv sz r a).
Proof. intros H. unfold tz. by rewrite H. Qed.
Lemma get_tz R sz r v : tz R sz r = Some v -> exists a, get2 R r = Some a /\ v = wv sz r a.
Proof. unfold tz. destruct (get2 R r); [|done]. intros [= <-]. eauto. Qed.
Lemma tz_upd R sz r a x : get2 R r = Some x -> upd (tz R sz) (tz (set2 R r a) sz) r (wv sz r a).
Proof.
  intros Hx i. unfold tz. rewrite get2_set2. case_decide; [subst; by rewrite Hx|done].
Qed.
Lemma live_wflag sz r a : v_live (wv sz r a) = true <-> w_flag a <> 3.
Proof. cbn. destruct (Nat.eqb_spec (w_flag a) 3); cbn; split; congruence || done. Qed.

(* distance to the root *)
Lemma wdepth_bound R sz x a : wf (tz R sz) -> get2 R x = Some a ->
  exists n t b, nsteps (vup (tz R sz)) n x t /\ tz R sz t = Some b /\ v_par b = None /\ n < num2 R.
Proof.
  intros HW Ha. destruct (wf_acyc _ HW x _ (tz_get _ _ _ _ Ha)) as (t & b & Hu & Hb & Hn).
  apply rtc_nsteps in Hu as [n Hs]. exists n, t, b. split; auto. split; auto. split; auto.
  assert (exists l, length l = S n /\ NoDup l /\ (forall y, y ∈ l -> vunder (tz R sz) x y /\ exists d, get2 R y = Some d)) as (l & L1 & L2 & L3).
  { revert x a Ha Hs. induction n as [|n IH]; intros x a Ha Hs.
    - exists [x]. split; auto. split; [apply NoDup_singleton|]. intros y Hy%elem_of_list_singleton. subst y.
      split; [apply rtc_refl|]. eauto.
    - inversion Hs as [|? ? x' ? Hx Hs']; subst.
      pose proof Hx as (v & Hv & Hp). destruct (wf_par _ HW _ _ _ Hv Hp) as (b' & Hb' & Hlt).
      destruct (get_tz _ _ _ _ Hb') as (a' & Ha' & ->).
      destruct (IH x' a' Ha' Hs') as (l & L1 & L2 & L3). exists (x :: l). split; [simpl; lia|]. split.
      + constructor; auto. intros Hin. apply L3 in Hin as [Hu _].
        assert (vunder (tz R sz) x x') as Hxx by (by apply rtc_once).
        pose proof (vunder_antisym _ _ _ _ HW (tz_get _ _ _ _ Ha) Hxx Hu) as <-.
        clear - Hx Hs Hb Hn. assert (forall m, nsteps (vup (tz R sz)) m x t -> t = x) as Hloop.
        { induction m as [|m IHm]; intros H; inversion H as [|? ? z ? Hz Hr]; subst; auto.
          rewrite (vup_fun _ _ _ _ Hz Hx) in Hr. auto. }
        apply Hloop in Hs as ->. destruct Hx as (v & Hv & Hp). congruence.
      + intros y [->|Hy]%elem_of_cons.
        * split; [apply rtc_refl|]. eauto.
        * apply L3 in Hy as [Hu Hr]. split; auto. by eapply rtc_l. }
  unfold lt. rewrite <-L1. apply num2_bound; auto. intros y Hy. by apply L3.
Qed.

Lemma wreal_ok R sz x a fuel : wf (tz R sz) -> get2 R x = Some a -> num2 R <= fuel ->
  exists y d, wreal fuel R (Some x) = Some (Some y) /\ vunder (tz R sz) x y /\ get2 R y = Some d /\
    w_flag d <> 3 /\ w_gray d = w_gray a /\
    (forall z c, vunder (tz R sz) x z -> tz R sz z = Some c -> v_live c = true -> vunder (tz R sz) y z).
Proof.
  intros HW Ha Hf. destruct (wdepth_bound R sz x a HW Ha) as (n & t & b & Hs & Hb & Hn & Hlt).
  assert (n < fuel) as Hnf by lia. clear Hf Hlt. revert x a fuel Ha Hs Hnf.
  induction n as [|n IH]; intros x a fuel Ha Hs Hnf.
  - inversion Hs; subst. destruct fuel as [|fuel]; [lia|]. cbn [wreal]. rewrite Ha.
    assert (w_flag a <> 3) as Hl.
    { intros H3. destruct (wf_dead _ HW t (wv sz t a) (tz_get _ _ _ _ Ha)) as (? & ? & ? & _).
      - simpl. by rewrite H3.
      - rewrite (tz_get _ _ _ _ Ha) in Hb. congruence. }
    destruct (Nat.eqb_spec (w_flag a) 3); [done|]. exists t, a.
    split; auto. split; [apply rtc_refl|]. auto.
  - inversion Hs as [|? ? x' ? Hx Hs']; subst. destruct fuel as [|fuel]; [lia|]. cbn [wreal]. rewrite Ha.
    destruct (Nat.eqb_spec (w_flag a) 3) as [H3|H3].
    + destruct (wf_dead _ HW x (wv sz x a) (tz_get _ _ _ _ Ha)) as (x2 & v & Hp & Hv & Hg). { simpl. by rewrite H3. }
      assert (x2 = x') as ->. { eapply vup_fun; [|exact Hx]. exists (wv sz x a). split; auto. by apply tz_get. }
      destruct (get_tz _ _ _ _ Hv) as (a' & Ha' & ->).
      destruct (IH x' a' fuel Ha' Hs') as (y & d & Y1 & Y2 & Y3 & Y4 & Y5 & Y6); [lia|].
      simpl in Hp. rewrite Hp. exists y, d. split; auto. split; [by eapply rtc_l|]. split; auto.
      split; auto. split; [simpl in Hg; congruence|].
      intros z c Hz Hc Hl. inversion Hz as [|? x3 ? Hu3 Hz']; subst.
      * rewrite (tz_get _ _ _ _ Ha) in Hc. injection Hc as <-. simpl in Hl. by rewrite H3 in Hl.
      * rewrite (vup_fun _ _ _ _ Hu3 Hx) in Hz'. eauto.
    + exists x, a. split; auto. split; [apply rtc_refl|]. auto.
Qed.

Lemma wreal_parent_ok R sz s a fuel : wf (tz R sz) -> get2 R s = Some a -> num2 R < fuel ->
  exists oy, wreal_parent fuel R s = Some (set2 R s (wset_par a oy), oy) /\
    real_parent (tz R sz) (wv sz s a) oy /\ is_live (tz R sz) oy.
Proof.
  intros HW Ha Hf. unfold wreal_parent, real_parent. rewrite Ha. cbn [wv v_par].
  destruct (w_par a) as [t|] eqn:Hp.
  - destruct (wf_par _ HW s (wv sz s a) t (tz_get _ _ _ _ Ha) Hp) as (v & Hv & _).
    destruct (get_tz _ _ _ _ Hv) as (b & Hb & ->).
    destruct (wreal_ok R sz t b fuel HW Hb) as (y & d & Y1 & Y2 & Y3 & Y4 & Y5 & Y6); [lia|].
    rewrite Y1. exists (Some y). split; auto. split.
    + exists y, (wv sz y d). split; auto. split; auto. split; [by apply tz_get|].
      split; [by apply live_wflag|].
      split; auto. intros bt Hbt. assert (bt = wv sz t b) as -> by congruence. simpl. auto.
    + intros ? [= <-]. exists (wv sz y d). split; [by apply tz_get|]. by apply live_wflag.
  - destruct fuel as [|fuel]; [lia|]. cbn [wreal]. exists None. split; auto. split; auto. by intros ? [=].
Qed.
(* a parent link that already points to a surviving region *)
Lemma wreal_parent_direct R s a fuel : get2 R s = Some a -> 0 < fuel ->
  (forall p, w_par a = Some p -> exists d, get2 R p = Some d /\ w_flag d <> 3) ->
  wreal_parent fuel R s = Some (set2 R s (wset_par a (w_par a)), w_par a).
Proof.
  intros Ha Hf Hp. unfold wreal_parent. rewrite Ha. destruct fuel as [|fuel]; [lia|]. cbn [wreal].
  destruct (w_par a) as [p|] eqn:E; [|done]. destruct (Hp p eq_refl) as (d & -> & Hd).
  destruct (Nat.eqb_spec (w_flag d) 3); done.
Qed.

(* ---------- the surviving regions as an order ---------- *)
Definition livez (T : rref -> option (vreg rref)) (r : rref) : Prop := exists a, T r = Some a /\ v_live a = true.
Definition grayz (T : rref -> option (vreg rref)) (r : rref) : nat := match T r with Some a => v_gray a | None => 0 end.
Definition domz (T : rref -> option (vreg rref)) (r : rref) : Prop := exists a, T r = Some a.
(* p is the surviving region above s *)
Definition lpar (L : rref -> Prop) (W : rref -> rref -> Prop) (s : rref) (par : option rref) : Prop :=
  match par with
  | None => forall y, L y -> W s y -> y = s
  | Some p => L p /\ W s p /\ p <> s /\ forall y, L y -> W s y -> y = s \/ W p y
  end.

Lemma order_wf (pin : rref -> Prop) (labq : rref -> rref) (pg : rref -> nat) (T : rref -> option (vreg rref)) : wf T ->
  (forall q, pin q -> exists a, T (labq q) = Some a /\ v_gray a = pg q) ->
  order pin labq pg (livez T) (vunder T) (grayz T).
Proof.
  intros HW Hlab. constructor.
  - intros r _. apply rtc_refl.
  - intros x y z _ _ H1 H2. by eapply rtc_transitive.
  - intros x y z _ _. apply vunder_linear.
  - intros x y (a & Ha & Hl) (b & Hb & Hl') H. unfold grayz. rewrite Ha, Hb. by eapply vunder_live.
  - intros r (a & Ha & Hl). destruct (wf_acyc _ HW r a Ha) as (t & b & H1 & H2 & H3). exists t. split; [|split].
    + exists b. split; [done|]. destruct (v_live b) eqn:E; [done|].
      destruct (wf_dead _ HW t b H2 E) as (? & ? & ? & _). congruence.
    + done.
    + intros y _ Hy. inversion Hy as [|? y' ? (c & Hc & Hp) _]; subst; [done|]. congruence.
  - intros q r Hq (b & Hb & Hl) H. destruct (Hlab q Hq) as (a & Ha & <-). unfold grayz. rewrite Hb.
    by eapply vunder_gray.
Qed.
Lemma lpar_real (T : rref -> option (vreg rref)) s a oy : wf T -> T s = Some a -> v_live a = true -> real_parent T a oy ->
  lpar (livez T) (vunder T) s oy.
Proof.
  intros HW Hs Hl HR. unfold real_parent in HR. destruct (v_par a) as [t|] eqn:Hp.
  - destruct HR as (y & d & -> & H1 & H2 & H3 & H4 & H5).
    assert (vup T s t) as Hst by (exists a; auto).
    cbn [lpar]. split; [exists d; auto|]. split; [by eapply rtc_l|]. split.
    + intros ->. assert (vunder T s t) as H6 by (by apply rtc_once).
      pose proof (vunder_antisym _ _ _ _ HW Hs H6 H1) as <-.
      destruct (wf_par _ HW _ _ _ Hs Hp) as (b & Hb & [?|[_ ?]]); [|congruence].
      assert (b = a) as -> by congruence. lia.
    + intros z (c & Hc & Hlc) Hz. inversion Hz as [|? t' ? Hu Hr]; subst; [by left|].
      rewrite (vup_fun _ _ _ _ Hu Hst) in Hr. right. eauto.
  - subst oy. cbn [lpar]. intros y _ Hy. inversion Hy as [|? y' ? (c & Hc & Hq) _]; subst; [done|]. congruence.
Qed.
Lemma lpar_fun pin labq pg L W g s p p' : order pin labq pg L W g -> L s -> lpar L W s p -> lpar L W s p' -> p = p'.
Proof.
  intros HO Ls. destruct p as [p|], p' as [p'|]; cbn [lpar].
  - intros (A1 & A2 & A3 & A4) (B1 & B2 & B3 & B4). f_equal.
    destruct (A4 p' B1 B2) as [?|H1]; [done|]. destruct (B4 p A1 A2) as [?|H2]; [done|].
    by apply (o_anti pin labq pg L W g HO).
  - intros (A1 & A2 & A3 & A4) H. by destruct A3; apply H.
  - intros H (A1 & A2 & A3 & A4). by destruct A3; apply H.
  - done.
Qed.
Lemma lpar_ext (L : rref -> Prop) (W : rref -> rref -> Prop) (L' : rref -> Prop) (W' : rref -> rref -> Prop) s p : L s -> (forall y, L y <-> L' y) -> (forall x y, L y -> W x y <-> W' x y) ->
  lpar L W s p -> lpar L' W' s p.
Proof.
  intros Ls HL HW. destruct p as [p|]; cbn [lpar].
  - intros (A1 & A2 & A3 & A4). split; [by apply HL|]. split; [by apply HW|]. split; [done|].
    intros y Ly Hy. apply HL in Ly. destruct (A4 y Ly) as [?|H]; [by apply HW|by left|]. right. by apply HW.
  - intros H y Ly Hy. apply HL in Ly. apply H; auto. by apply HW.
Qed.

(* shortening a parent link *)
Lemma compress_same (T T' : rref -> option (vreg rref)) s a oy : wf T -> T s = Some a -> real_parent T a oy ->
  upd T T' s (VReg (v_gray a) (v_live a) (v_size a) oy) ->
  wf T' /\ (forall y, livez T y <-> livez T' y) /\ (forall x y, livez T y -> vunder T x y <-> vunder T' x y) /\
  (forall y, grayz T y = grayz T' y) /\ (forall y, domz T y <-> domz T' y).
Proof.
  intros HW Hs HR HU.
  assert ((forall y, livez T y <-> livez T' y) /\ (forall y, grayz T y = grayz T' y) /\ (forall y, domz T y <-> domz T' y)) as (HL & HG & HD).
  { split_and!; intros y; unfold livez, grayz, domz; rewrite (HU y); case_decide as Hd; try done; subst.
    - split; intros (b & Hb & Hl).
      + assert (b = a) as -> by congruence. eexists. split; [done|]. done.
      + injection Hb as <-. exists a. done.
    - by rewrite Hs.
    - split; intros _; eauto. }
  unfold real_parent in HR. destruct (v_par a) as [t|] eqn:Hpa.
  - destruct HR as (y & d & -> & H1 & H2 & H3 & H4 & H5). split_and!; auto.
    + exact (compress_wf T T' s a t y d HW Hs Hpa H1 H2 H4 H5 HU).
    + intros x r (e & Hr & Hl). symmetry. exact (compress_under T T' s a t y d HW Hs Hpa H1 H4 H5 HU x r e Hr Hl).
  - subst oy. split_and!; auto.
    + eapply wf_same; eauto.
    + intros x y _. symmetry. apply vunder_iff. intros. eapply same_vup; eauto.
Qed.
