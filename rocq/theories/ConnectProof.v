(* connect turns the component tree of a view into that of the view with one more
   adjacency; it terminates and needs no more memory. *)
From stdpp Require Import sorting relations functions list.
From Coq Require Import NArith.
From Verif Require Import Spec TreeSpec TreeFacts JoinMath FloodModel ConnectModel.

(* a region record of the code, read as a stored region *)
Definition vr (a : greg) : vreg rref := VReg (g_gray a) (negb (g_flag a =? 3)) (g_size a) (g_par a).
Definition tab (F : forest) (r : rref) : option (vreg rref) := vr <$> fget F r.
(* number of region records *)
Definition nregs (F : forest) : nat := sum_list (length <$> F).

Lemma fget_fset F r a r' : fget (fset F r a) r' =
  if decide (r' = r) then (match fget F r with Some _ => Some a | None => None end) else fget F r'.
Proof.
  unfold fget, fset. destruct r as [k i], r' as [k' i']; cbn [fst snd].
  destruct (decide (k' = k)) as [->|Hk].
  - rewrite list_lookup_alter. destruct (F !! k) as [l|] eqn:Hl; cbn [fmap option_fmap option_map].
    + case_decide as Hd.
      * injection Hd as ->. destruct (l !! i) as [x|] eqn:Hx.
        -- apply list_lookup_insert. by eapply lookup_lt_Some.
        -- rewrite list_insert_ge; auto. by apply lookup_ge_None.
      * apply list_lookup_insert_ne. intros ->. done.
    + by case_decide.
  - rewrite list_lookup_alter_ne by auto. rewrite decide_False by congruence. done.
Qed.
Lemma fset_shape F r a : length <$> fset F r a = length <$> F.
Proof.
  unfold fset. apply list_eq. intros i. rewrite !list_lookup_fmap.
  destruct (decide (i = fst r)) as [->|Hi].
  - rewrite list_lookup_alter. destruct (F !! fst r); simpl; [|done]. by rewrite insert_length.
  - by rewrite list_lookup_alter_ne by auto.
Qed.

Lemma tab_upd F r a x : fget F r = Some x -> upd (tab F) (tab (fset F r a)) r (vr a).
Proof. intros Hx i. unfold tab. rewrite fget_fset. case_decide; [by rewrite Hx|done]. Qed.
Lemma tab_get F r a : fget F r = Some a -> tab F r = Some (vr a).
Proof. intros H. unfold tab. by rewrite H. Qed.
Lemma get_tab F r v : tab F r = Some v -> exists a, fget F r = Some a /\ v = vr a.
Proof. unfold tab. destruct (fget F r); [|done]. intros [= <-]. eauto. Qed.

(* all references of a forest *)
Definition refs (F : forest) : list rref :=
  concat (imap (fun k l => (fun i => (k, i)) <$> seq 0 (length l)) F).
Lemma refs_length F : length (refs F) = nregs F.
Proof.
  unfold refs, nregs.
  assert (forall f, (forall k (l : list greg), length (f k l) = length l) ->
    length (concat (imap f F : list (list rref))) = sum_list (length <$> F)) as H.
  { induction F as [|l F IH]; intros f Hf; [done|]. rewrite imap_cons. cbn [concat fmap list_fmap sum_list].
    rewrite app_length, Hf. f_equal. apply IH. intros. apply Hf. }
  apply H. intros k l. by rewrite fmap_length, seq_length.
Qed.
Lemma elem_refs F r a : fget F r = Some a -> r ∈ refs F.
Proof.
  unfold fget, refs. destruct r as [k i]; cbn [fst snd]. destruct (F !! k) as [l|] eqn:Hl; [|done]. intros Ha.
  apply elem_of_list_In, in_concat. exists ((fun i => (k, i)) <$> seq 0 (length l)). split.
  - apply elem_of_list_In, elem_of_lookup_imap. exists k, l. auto.
  - apply elem_of_list_In, elem_of_list_fmap. exists i. split; auto. apply elem_of_seq.
    apply lookup_lt_Some in Ha. lia.
Qed.

(* distance to the root *)
Lemma depth_bound F x a : wf (tab F) -> fget F x = Some a ->
  exists n t b, nsteps (vup (tab F)) n x t /\ tab F t = Some b /\ v_par b = None /\ n < nregs F.
Proof.
  intros HW Ha. destruct (wf_acyc _ HW x _ (tab_get _ _ _ Ha)) as (t & b & Hu & Hb & Hn).
  apply rtc_nsteps in Hu as [n Hs]. exists n, t, b. split; auto. split; auto. split; auto.
  assert (exists l, length l = S n /\ NoDup l /\ (forall y, y ∈ l -> vunder (tab F) x y /\ y ∈ refs F)) as (l & L1 & L2 & L3).
  { revert x a Ha Hs. induction n as [|n IH]; intros x a Ha Hs.
    - exists [x]. split; auto. split; [apply NoDup_singleton|]. intros y Hy%elem_of_list_singleton. subst y.
      split; [apply rtc_refl|]. by eapply elem_refs.
    - inversion Hs as [|? ? x' ? Hx Hs']; subst.
      pose proof Hx as (v & Hv & Hp). destruct (wf_par _ HW _ _ _ Hv Hp) as (b' & Hb' & Hlt).
      destruct (get_tab _ _ _ Hb') as (a' & Ha' & ->).
      destruct (IH x' a' Ha' Hs') as (l & L1 & L2 & L3). exists (x :: l). split; [simpl; lia|]. split.
      + constructor; auto. intros Hin. apply L3 in Hin as [Hu _].
        assert (vunder (tab F) x x') as Hxx by (by apply rtc_once).
        pose proof (vunder_antisym _ _ _ _ HW (tab_get _ _ _ Ha) Hxx Hu) as <-.
        (* a self loop never reaches the root *)
        clear - Hx Hs Hb Hn. assert (forall m, nsteps (vup (tab F)) m x t -> t = x) as Hloop.
        { induction m as [|m IHm]; intros H; inversion H as [|? ? z ? Hz Hr]; subst; auto.
          rewrite (vup_fun _ _ _ _ Hz Hx) in Hr. auto. }
        apply Hloop in Hs as ->. destruct Hx as (v & Hv & Hp). congruence.
      + intros y [->|Hy]%elem_of_cons.
        * split; [apply rtc_refl|]. by eapply elem_refs.
        * apply L3 in Hy as [Hu Hr]. split; auto. by eapply rtc_l. }
  rewrite <-refs_length. unfold lt. rewrite <-L1.
  apply submseteq_length. apply NoDup_submseteq; auto. intros y Hy. by apply L3.
Qed.

Lemma real_ok F x a fuel : wf (tab F) -> fget F x = Some a -> nregs F <= fuel ->
  exists y d, real fuel F (Some x) = Some (Some y) /\ vunder (tab F) x y /\ fget F y = Some d /\
    g_flag d <> 3 /\ g_gray d = g_gray a /\
    (forall z c, vunder (tab F) x z -> tab F z = Some c -> v_live c = true -> vunder (tab F) y z).
Proof.
  intros HW Ha Hf. destruct (depth_bound F x a HW Ha) as (n & t & b & Hs & Hb & Hn & Hlt).
  assert (n < fuel) as Hnf by lia. clear Hf Hlt. revert x a fuel Ha Hs Hnf.
  induction n as [|n IH]; intros x a fuel Ha Hs Hnf.
  - inversion Hs; subst. destruct fuel as [|fuel]; [lia|]. cbn [real]. rewrite Ha.
    assert (g_flag a <> 3) as Hl.
    { intros H3. destruct (wf_dead _ HW t (vr a) (tab_get _ _ _ Ha)) as (? & ? & ? & _).
      - simpl. by rewrite H3.
      - rewrite (tab_get _ _ _ Ha) in Hb. congruence. }
    destruct (Nat.eqb_spec (g_flag a) 3); [done|]. exists t, a.
    split; auto. split; [apply rtc_refl|]. auto.
  - inversion Hs as [|? ? x' ? Hx Hs']; subst. destruct fuel as [|fuel]; [lia|]. cbn [real]. rewrite Ha.
    destruct (Nat.eqb_spec (g_flag a) 3) as [H3|H3].
    + destruct (wf_dead _ HW x (vr a) (tab_get _ _ _ Ha)) as (x2 & v & Hp & Hv & Hg). { simpl. by rewrite H3. }
      assert (x2 = x') as ->. { eapply vup_fun; [|exact Hx]. exists (vr a). split; auto. by apply tab_get. }
      destruct (get_tab _ _ _ Hv) as (a' & Ha' & ->).
      destruct (IH x' a' fuel Ha' Hs') as (y & d & Y1 & Y2 & Y3 & Y4 & Y5 & Y6); [lia|].
      simpl in Hp. rewrite Hp. exists y, d. split; auto. split; [by eapply rtc_l|]. split; auto.
      split; auto. split; [simpl in Hg; congruence|].
      intros z c Hz Hc Hl. inversion Hz as [|? x3 ? Hu3 Hz']; subst.
      * rewrite (tab_get _ _ _ Ha) in Hc. injection Hc as <-. simpl in Hl. by rewrite H3 in Hl.
      * rewrite (vup_fun _ _ _ _ Hu3 Hx) in Hz'. eauto.
    + exists x, a. split; auto. split; [apply rtc_refl|]. auto.
Qed.

Lemma real_parent_ok F s a fuel : wf (tab F) -> fget F s = Some a -> nregs F < fuel ->
  exists oy, get_set_real_parent fuel F s = Some (fset F s (set_par a oy), oy) /\
    real_parent (tab F) (vr a) oy /\ is_live (tab F) oy.
Proof.
  intros HW Ha Hf. unfold get_set_real_parent, real_parent. rewrite Ha. cbn [vr v_par].
  destruct (g_par a) as [t|] eqn:Hp.
  - destruct (wf_par _ HW s (vr a) t (tab_get _ _ _ Ha) Hp) as (v & Hv & _).
    destruct (get_tab _ _ _ Hv) as (b & Hb & ->).
    destruct (real_ok F t b fuel HW Hb) as (y & d & Y1 & Y2 & Y3 & Y4 & Y5 & Y6); [lia|].
    rewrite Y1. exists (Some y). split; auto. split.
    + exists y, (vr d). split; auto. split; auto. split; [by apply tab_get|].
      split; [simpl; destruct (Nat.eqb_spec (g_flag d) 3); done|].
      split; auto. intros bt Hbt. assert (bt = vr b) as -> by congruence. simpl. auto.
    + intros ? [= <-]. exists (vr d). split; [by apply tab_get|].
      simpl; destruct (Nat.eqb_spec (g_flag d) 3); done.
  - destruct fuel as [|fuel]; [lia|]. cbn [real]. exists None. split; auto. split; auto. by intros ? [=].
Qed.

(* what connect leaves alone *)
Record frame (F F' : forest) : Prop := {
  fr_shape : length <$> F' = length <$> F;
  fr_reg : forall r a, fget F r = Some a -> exists a', fget F' r = Some a' /\
    g_gray a' = g_gray a /\ g_idx a' = g_idx a /\ g_patch a' = g_patch a /\
    (g_flag a' = g_flag a \/ g_flag a' = 3)
}.
Lemma frame_refl F : frame F F.
Proof. constructor; auto. intros r a Ha. exists a. auto 6. Qed.
Lemma frame_trans F F' F'' : frame F F' -> frame F' F'' -> frame F F''.
Proof.
  intros [S1 R1] [S2 R2]. constructor; [congruence|]. intros r a Ha.
  destruct (R1 r a Ha) as (a' & Ha' & A1 & A2 & A3 & A4).
  destruct (R2 r a' Ha') as (a'' & Ha'' & B1 & B2 & B3 & B4).
  exists a''. split; auto. split; [congruence|]. split; [congruence|]. split; [congruence|].
  destruct B4 as [->|?]; auto.
Qed.
Lemma frame_fset F r a b : fget F r = Some a -> g_gray b = g_gray a -> g_idx b = g_idx a ->
  g_patch b = g_patch a -> (g_flag b = g_flag a \/ g_flag b = 3) -> frame F (fset F r b).
Proof.
  intros Ha H1 H2 H3 H4. constructor; [apply fset_shape|]. intros r' a' Ha'. rewrite fget_fset.
  case_decide as Hd.
  - subst. rewrite Ha. exists b. assert (a' = a) as -> by congruence. auto.
  - exists a'. auto 6.
Qed.
Lemma frame_nregs F F' : frame F F' -> nregs F' = nregs F.
Proof. intros [H _]. unfold nregs. by rewrite H. Qed.
Lemma frame_inv F F' r a' : frame F F' -> fget F' r = Some a' -> exists a, fget F r = Some a.
Proof.
  intros [H _] Ha. unfold fget in *. destruct r as [k i]; cbn [fst snd] in *.
  assert (length <$> F' !! k = length <$> F !! k) as Hk.
  { rewrite <-!list_lookup_fmap. by rewrite H. }
  destruct (F' !! k) as [l'|]; [|done]. destruct (F !! k) as [l|]; [|done]. injection Hk as Hk.
  apply lookup_lt_Some in Ha. rewrite Hk in Ha. by apply lookup_lt_is_Some in Ha.
Qed.

Definition bounded (F : forest) : Prop := forall r a, fget F r = Some a -> g_gray a <= 255.
Lemma frame_bounded F F' : frame F F' -> bounded F -> bounded F'.
Proof.
  intros HF HB r a' Ha'. destruct (frame_inv _ _ _ _ HF Ha') as [a Ha].
  destruct (fr_reg _ _ HF r a Ha) as (a2 & Ha2 & Hg & _). assert (a2 = a') as -> by congruence.
  rewrite Hg. eauto.
Qed.

Section loop.
Context (V : view) (lab : nat -> rref) (C0 : nat -> rref -> rref -> Prop) (N : nat).
Notation J F os ob c := (jinv V lab C0 N (tab F) os ob c).
Context (Hsmall : (N.of_nat N < 2 ^ 31)%N).

Lemma add_ok a b : a + b <= N -> add_i32 a b = Some (a + b).
Proof. intros H. unfold add_i32. destruct (N.ltb_spec (N.of_nat (a + b)) (2 ^ 31)); [done|lia]. Qed.

Definition og (F : forest) (o : option rref) : nat :=
  match o with Some r => match fget F r with Some a => g_gray a | None => 0 end | None => 256 end.

Lemma live_flag a : v_live (vr a) = true -> g_flag a <> 3.
Proof. simpl. destruct (Nat.eqb_spec (g_flag a) 3); done. Qed.

Lemma connect_loop_ok n fuel F bigger smaller c : J F smaller bigger c -> bounded F ->
  nregs F < fuel -> 512 - og F smaller - og F bigger < n -> smaller <> None ->
  exists F' bigger' smaller' c', connect_loop n fuel F bigger smaller c = Some (F', bigger', smaller', c') /\
    J F' smaller' bigger' c' /\ frame F F' /\ (smaller' = bigger' \/ bigger' = None) /\ smaller' <> None.
Proof.
  revert F bigger smaller c. induction n as [|n IH]; intros F bigger smaller c HJ HB Hf Hn Hns; [lia|].
  cbn [connect_loop]. destruct smaller as [s0|]; [|done].
  destruct bigger as [b0|].
  2: { exists F, None, (Some s0), c. split; [done|]. split; [done|]. split; [apply frame_refl|]. auto. }
  case_decide as Hsb.
  { subst. exists F, (Some b0), (Some b0), c. split; [done|]. split; [done|]. split; [apply frame_refl|]. auto. }
  destruct (j_s _ _ _ _ _ _ _ _ HJ s0 eq_refl) as (vx & Hvx & Hlx).
  destruct (j_b _ _ _ _ _ _ _ _ HJ b0 eq_refl) as (vy & Hvy & Hly).
  destruct (get_tab _ _ _ Hvx) as (x & Hx & ->). destruct (get_tab _ _ _ Hvy) as (y & Hy & ->).
  rewrite Hx, Hy.
  (* after the optional swap *)
  set (s := if g_gray y <? g_gray x then b0 else s0).
  set (b := if g_gray y <? g_gray x then s0 else b0).
  assert (exists xs xb, J F (Some s) (Some b) c /\ fget F s = Some xs /\ fget F b = Some xb /\
    g_gray xs <= g_gray xb /\ s <> b /\ g_flag xs <> 3 /\ g_flag xb <> 3 /\
    512 - g_gray xs - g_gray xb < S n) as (xs & xb & HJ' & Hs & Hb & Hg & Hne & Hls & Hlb & Hn').
  { cbn [og] in Hn. rewrite Hx, Hy in Hn. subst s b. apply live_flag in Hlx, Hly.
    destruct (Nat.ltb_spec (g_gray y) (g_gray x)) as [Hlt|Hge].
    - exists y, x. destruct (j_ord _ _ _ _ _ _ _ _ HJ) as [->|Ho].
      + split; [by apply j_swap|]. repeat split; auto; lia.
      + specialize (Ho s0 b0 _ _ eq_refl eq_refl Hvx Hvy). simpl in Ho. lia.
    - exists x, y. split; [exact HJ|]. repeat split; auto; lia. }
  clearbody s b. clear HJ Hn Hvx Hvy Hlx Hly Hx Hy Hns Hsb x y s0 b0.
  pose proof (j_wf _ _ _ _ _ _ _ _ HJ') as HW.
  destruct (real_parent_ok F s xs fuel HW Hs Hf) as (oy & -> & HR & Hlo).
  set (F1 := fset F s (set_par xs oy)).
  pose proof (tab_upd F s (set_par xs oy) xs Hs) as HU1.
  assert (fget F1 s = Some (set_par xs oy)) as Hs1.
  { unfold F1. rewrite fget_fset, decide_True, Hs; auto. }
  assert (forall r, r <> s -> fget F1 r = fget F r) as Hne1.
  { intros r Hr. unfold F1. by rewrite fget_fset, decide_False. }
  assert (fget F1 b = Some xb) as Hb1 by (rewrite Hne1; auto).
  rewrite Hs1, Hb1.
  assert (J F1 (Some s) (Some b) c) as HJ1.
  { eapply j_compress; [exact HJ'|exact (tab_get _ _ _ Hs)|exact HR|exact HU1]. }
  assert (frame F F1) as HF1. { eapply frame_fset; eauto. }
  assert (is_live (tab F1) oy) as Hlo1.
  { intros z Hz. destruct (Hlo z Hz) as (v & Hv & Hvl). destruct (get_tab _ _ _ Hv) as (d & Hd & ->).
    destruct (decide (z = s)) as [->|Hzs].
    - exists (vr (set_par xs oy)). split; [by apply tab_get|]. simpl.
      destruct (Nat.eqb_spec (g_flag xs) 3); done.
    - exists (vr d). split; auto. apply tab_get. by rewrite Hne1. }
  assert (forall b' a', Some b = Some b' -> tab F1 b' = Some a' -> v_gray (vr (set_par xs oy)) <= v_gray a' /\ s <> b') as Hsb.
  { intros b' a' [= <-] Ha'. rewrite (tab_get _ _ _ Hb1) in Ha'. injection Ha' as <-. auto. }
  destruct (j_fits _ _ _ _ _ _ _ _ _ HJ1 (tab_get _ _ _ Hs1) Hsb) as [_ Hfit]. simpl in Hfit.
  cbn [g_size set_par]. rewrite (add_ok _ _ Hfit).
  destruct oy as [z|].
  - destruct (Hlo1 z eq_refl) as (v & Hv & Hvl). destruct (get_tab _ _ _ Hv) as (d & Hd & ->).
    cbn [below]. rewrite Hd.
    (* the real parent is brighter than s *)
    assert (g_gray xs < g_gray d) as Hgd.
    { destruct (wf_par _ (j_wf _ _ _ _ _ _ _ _ HJ1) s _ z (tab_get _ _ _ Hs1) eq_refl) as (v & Hv2 & Hcase).
      assert (v = vr d) as -> by congruence. simpl in Hcase.
      destruct Hcase as [?|[_ Hfl]]; auto. destruct (Nat.eqb_spec (g_flag xs) 3); done. }
    assert (g_gray d <= 255) as Hd255. { eapply (frame_bounded F F1); eauto. }
    assert (g_gray xb <= 255) as Hb255. { eapply HB; eauto. }
    destruct (Nat.ltb_spec (g_gray d) (g_gray xb)) as [Hlt|Hge].
    + set (F2 := fset F1 s (set_size (set_par xs (Some z)) (g_size xs + c))).
      assert (frame F1 F2) as HF2. { eapply frame_fset; eauto. }
      destruct (IH F2 (Some b) (Some z) c) as (F' & b' & s' & c' & R1 & R2 & R3 & R4 & R5).
      * eapply j_advance; [exact HJ1|exact (tab_get _ _ _ Hs1)|reflexivity|exact Hlo1|exact Hsb| |done|].
        -- intros y d' b'' a' [= <-] Hd' [= <-] Ha'.
           rewrite Hv in Hd'. injection Hd' as <-. rewrite (tab_get _ _ _ Hb1) in Ha'. injection Ha' as <-. cbn [vr v_gray]. lia.
        -- exact (tab_upd F1 s _ _ Hs1).
      * eapply frame_bounded; [|exact HB]. by eapply frame_trans.
      * rewrite (frame_nregs F1 F2 HF2), (frame_nregs F F1 HF1). done.
      * destruct (fr_reg _ _ HF2 z d Hd) as (d2 & Hd2 & Hgd2 & _).
        destruct (fr_reg _ _ HF2 b xb Hb1) as (b2 & Hb2 & Hgb2 & _).
        cbn [og]. rewrite Hd2, Hb2, Hgd2, Hgb2. lia.
      * done.
      * exists F', b', s', c'. split; auto. split; auto. split; auto.
        eapply frame_trans; [exact HF1|]. by eapply frame_trans.
    + set (F2 := fset F1 s _).
      assert (frame F1 F2) as HF2.
      { eapply frame_fset; eauto. simpl. case_match; auto. }
      destruct (IH F2 (Some z) (Some b) (g_size xs)) as (F' & b' & s' & c' & R1 & R2 & R3 & R4 & R5).
      * eapply (j_rehang V lab C0 N (tab F1) (tab F2) s (vr (set_par xs (Some z))) b (vr xb) (Some z) c);
          [exact HJ1|exact (tab_get _ _ _ Hs1)|exact (tab_get _ _ _ Hb1)|reflexivity|exact Hlo1|done|done| |].
        -- intros y d' [= <-] Hd'. rewrite Hv in Hd'. injection Hd' as <-. done.
        -- pose proof (tab_upd F1 s (set_par (set_size (set_flag (set_par xs (Some z))
             (if g_gray xb =? g_gray (set_par xs (Some z)) then 3 else g_flag (set_par xs (Some z)))) (g_size xs + c)) (Some b)) _ Hs1) as HU2.
           unfold vr in HU2. simpl in HU2. unfold F2. simpl.
           destruct (Nat.eqb_spec (g_gray xb) (g_gray xs)) as [He|He]; simpl in *; auto.
           destruct (Nat.eqb_spec (g_flag xs) 3); [done|]. exact HU2.
      * eapply frame_bounded; [|exact HB]. by eapply frame_trans.
      * rewrite (frame_nregs F1 F2 HF2), (frame_nregs F F1 HF1). done.
      * destruct (fr_reg _ _ HF2 z d Hd) as (d2 & Hd2 & Hgd2 & _).
        destruct (fr_reg _ _ HF2 b xb Hb1) as (b2 & Hb2 & Hgb2 & _).
        cbn [og]. rewrite Hd2, Hb2, Hgd2, Hgb2. lia.
      * done.
      * exists F', b', s', c'. split; auto. split; auto. split; auto.
        eapply frame_trans; [exact HF1|]. by eapply frame_trans.
  - cbn [below]. assert (g_gray xb <= 255) as Hb255. { eapply HB; eauto. }
    set (F2 := fset F1 s _).
    assert (frame F1 F2) as HF2.
    { eapply frame_fset; eauto. simpl. case_match; auto. }
    destruct (IH F2 None (Some b) (g_size xs)) as (F' & b' & s' & c' & R1 & R2 & R3 & R4 & R5).
    + eapply (j_rehang V lab C0 N (tab F1) (tab F2) s (vr (set_par xs None)) b (vr xb) None c);
        [exact HJ1|exact (tab_get _ _ _ Hs1)|exact (tab_get _ _ _ Hb1)|reflexivity|exact Hlo1|done|done|done|].
      pose proof (tab_upd F1 s (set_par (set_size (set_flag (set_par xs None)
             (if g_gray xb =? g_gray (set_par xs None) then 3 else g_flag (set_par xs None))) (g_size xs + c)) (Some b)) _ Hs1) as HU2.
      unfold vr in HU2. simpl in HU2. unfold F2. simpl.
      destruct (Nat.eqb_spec (g_gray xb) (g_gray xs)) as [He|He]; simpl in *; auto.
      destruct (Nat.eqb_spec (g_flag xs) 3); [done|]. exact HU2.
    + eapply frame_bounded; [|exact HB]. by eapply frame_trans.
    + rewrite (frame_nregs F1 F2 HF2), (frame_nregs F F1 HF1). done.
    + destruct (fr_reg _ _ HF2 b xb Hb1) as (b2 & Hb2 & Hgb2 & _).
      cbn [og]. rewrite Hb2, Hgb2. lia.
    + done.
    + exists F', b', s', c'. split; auto. split; auto. split; auto.
      eapply frame_trans; [exact HF1|]. by eapply frame_trans.
Qed.

Lemma connect_rest_ok n fuel F smaller c : J F smaller None c -> bounded F -> nregs F < fuel ->
  257 - og F smaller < n ->
  exists F', connect_rest n fuel F smaller c = Some F' /\ frame F F' /\ J F' None None c.
Proof.
  revert F smaller. induction n as [|n IH]; intros F smaller HJ HB Hf Hn; [lia|].
  cbn [connect_rest]. destruct smaller as [s|]; [|by exists F; split; [done|]; split; [apply frame_refl|]].
  destruct (j_s _ _ _ _ _ _ _ _ HJ s eq_refl) as (vx & Hvx & Hlx).
  destruct (get_tab _ _ _ Hvx) as (x & Hx & ->). apply live_flag in Hlx. rewrite Hx.
  destruct (j_fits _ _ _ _ _ _ _ _ _ HJ Hvx) as [_ Hfit]; [done|]. simpl in Hfit.
  rewrite (add_ok _ _ Hfit).
  (* the real parent is the same before and after the size is written *)
  pose proof (j_wf _ _ _ _ _ _ _ _ HJ) as HW.
  set (F1 := fset F s (set_size x (g_size x + c))).
  assert (frame F F1) as HF1 by (eapply frame_fset; eauto).
  assert (fget F1 s = Some (set_size x (g_size x + c))) as Hs1.
  { unfold F1. rewrite fget_fset, decide_True, Hx; auto. }
  pose proof (tab_upd F s (set_size x (g_size x + c)) x Hx) as HU1. fold F1 in HU1.
  assert (wf (tab F1)) as HW1. { eapply wf_same; [exact HW|exact HU1|exact Hvx|done|done|done]. }
  destruct (real_parent_ok F1 s _ fuel HW1 Hs1) as (oy & -> & HR & Hlo). { by rewrite (frame_nregs _ _ HF1). }
  set (F2 := fset F1 s _).
  assert (frame F1 F2) as HF2 by (eapply frame_fset; eauto).
  assert (fget F2 s = Some (set_par (set_size x (g_size x + c)) oy)) as Hs2.
  { unfold F2. rewrite fget_fset, decide_True, Hs1; auto. }
  assert (forall r, r <> s -> fget F2 r = fget F r) as Hne2.
  { intros r Hr. unfold F2. rewrite fget_fset, decide_False by auto. unfold F1. by rewrite fget_fset, decide_False. }
  (* first shorten, then write the size: the same table *)
  set (G1 := fset F s (set_par x oy)).
  assert (fget G1 s = Some (set_par x oy)) as Hg1.
  { unfold G1. rewrite fget_fset, decide_True, Hx; auto. }
  assert (forall r, r <> s -> fget G1 r = fget F r) as Hneg.
  { intros r Hr. unfold G1. by rewrite fget_fset, decide_False. }
  assert (forall u v, vup (tab F1) u v <-> vup (tab F) u v) as Hvup.
  { intros. eapply same_vup; [exact HU1|exact Hvx|done]. }
  assert (real_parent (tab F) (vr x) oy) as HR0.
  { unfold real_parent in *. cbn [v_par vr g_par set_size] in *. destruct (g_par x) as [t|] eqn:Hp; auto.
    destruct HR as (y & d & -> & H1 & H2 & H3 & H4 & H5).
    assert (forall r v, tab F1 r = Some v -> exists v', tab F r = Some v' /\ v_gray v' = v_gray v /\ v_live v' = v_live v) as Hb1.
    { intros r v Hr. rewrite (HU1 r) in Hr. case_decide as Hd; eauto. subst. injection Hr as <-. eauto. }
    assert (forall r v, tab F r = Some v -> exists v', tab F1 r = Some v' /\ v_gray v' = v_gray v /\ v_live v' = v_live v) as Hb2.
    { intros r v Hr. rewrite (HU1 r). case_decide as Hd; eauto. subst. assert (v = vr x) as -> by congruence. eauto. }
    destruct (Hb1 _ _ H2) as (d' & Hd' & Hdg & Hdl).
    exists y, d'. split; auto. split; [by rewrite <-(vunder_iff (tab F) (tab F1))|]. split; auto.
    split; [congruence|]. split.
    - intros bt Hbt. destruct (Hb2 _ _ Hbt) as (bt' & Hbt' & Hgb & _). rewrite Hdg, <-Hgb. auto.
    - intros z e Hz He Hle. destruct (Hb2 _ _ He) as (e' & He' & _ & Hle').
      rewrite <-(vunder_iff (tab F) (tab F1)) by auto. apply (H5 z e'); auto; [|congruence].
      by rewrite (vunder_iff (tab F) (tab F1)). }
  assert (J G1 (Some s) None c) as HJ1.
  { eapply j_compress; [exact HJ|exact Hvx|exact HR0|]. exact (tab_upd F s (set_par x oy) x Hx). }
  assert (is_live (tab G1) oy) as Hlo1.
  { intros z Hz. destruct (Hlo z Hz) as (v & Hv & Hvl). destruct (get_tab _ _ _ Hv) as (d & Hd & ->).
    destruct (decide (z = s)) as [->|Hzs].
    - exists (vr (set_par x oy)). split; [by apply tab_get|]. simpl.
      destruct (Nat.eqb_spec (g_flag x) 3); done.
    - exists (vr d). split; auto. apply tab_get. rewrite Hneg by auto. unfold F1 in Hd.
      by rewrite fget_fset, decide_False in Hd. }
  assert (J F2 oy None c) as HJ2.
  { eapply j_advance; [exact HJ1|exact (tab_get _ _ _ Hg1)|reflexivity|exact Hlo1|done|done|done|].
    intros i. unfold tab. destruct (decide (i = s)) as [->|Hi].
    - rewrite Hs2. done.
    - rewrite Hne2, Hneg by auto. done. }
  destruct (IH F2 oy) as (F' & R1 & R2 & R3); auto.
  - eapply frame_bounded; [|exact HB]. by eapply frame_trans.
  - rewrite (frame_nregs F1 F2 HF2), (frame_nregs F F1 HF1). done.
  - cbn [og] in Hn. rewrite Hx in Hn. assert (g_gray x <= 255) by eauto.
    destruct oy as [z|]; [|cbn [og]; lia].
    destruct (Hlo1 z eq_refl) as (v & Hv & Hvl). destruct (get_tab _ _ _ Hv) as (d & Hd & ->).
    assert (g_gray x < g_gray d) as Hgd.
    { destruct (wf_par _ (j_wf _ _ _ _ _ _ _ _ HJ1) s _ z (tab_get _ _ _ Hg1) eq_refl) as (v & Hv2 & Hcase).
      assert (v = vr d) as -> by congruence. simpl in Hcase.
      destruct Hcase as [?|[_ Hfl]]; auto. destruct (Nat.eqb_spec (g_flag x) 3); done. }
    assert (z <> s) as Hzs. { intros ->. rewrite Hg1 in Hd. injection Hd as <-. simpl in Hgd. lia. }
    assert (g_gray d <= 255). { rewrite Hneg in Hd by auto. eauto. }
    cbn [og]. rewrite Hne2 by auto. rewrite Hneg in Hd by auto. rewrite Hd. lia.
  - exists F'. split; auto. split; auto. eapply frame_trans; [exact HF1|]. by eapply frame_trans.
Qed.
End loop.

(* SPEC-facing statement: one connect call *)
Lemma connect_ok V lab F N p0 q0 a b fuel :
  vsym V -> ctree V lab (tab F) -> card_is (vw_in V) N -> (N.of_nat N < 2 ^ 31)%N -> bounded F ->
  vw_in V p0 -> vw_in V q0 -> nregs F + 514 < fuel ->
  real_of (tab F) (lab q0) a -> real_of (tab F) (lab p0) b ->
  exists F', connect fuel F (Some a) (Some b) = Some F' /\ frame F F' /\
    ctree (add_edge V p0 q0) lab (tab F').
Proof.
  intros HS HT HN Hsm HB Hp Hq Hf Ha Hb.
  pose proof (j_start V lab (tab F) N p0 q0 b a HS HT HN Hp Hq Hb Ha) as HJ.
  destruct (connect_loop_ok V lab _ N Hsm fuel fuel F (Some a) (Some b) 0 HJ HB) as
    (F' & b' & s' & c' & R1 & R2 & R3 & R4 & R5); [lia|simpl; lia|done|].
  unfold connect. rewrite R1. destruct b' as [b'|].
  - exists F'. split; auto. split; auto.
    eapply (j_end V lab (tab F) (tab F')); eauto. destruct R4 as [->|?]; [auto|done].
  - destruct (connect_rest_ok V lab _ N Hsm fuel fuel F' s' c' R2) as (F'' & S1 & S2 & S3).
    + by eapply frame_bounded.
    + rewrite (frame_nregs _ _ R3). lia.
    + lia.
    + exists F''. split; auto. split; [by eapply frame_trans|].
      eapply (j_end V lab (tab F) (tab F'')); eauto.
Qed.
