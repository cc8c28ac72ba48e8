(* Duplicate removal of the model is the abstract one. *)
From stdpp Require Import sorting relations functions list.
From Coq Require Import NArith ZArith SpecFloat.
From Verif Require Import Spec TreeSpec TreeFacts JoinMath FloodModel ConnectModel ConnectProof FloatModel FloatFacts
  RecogModel RecogSpec RecogStatic RecogWorkers RecogSched RecogNms RecogSerial RecogOrder DupAbs.
Local Open Scope nat_scope.

(* a region is small enough, two sizes are near *)
Definition too_big (P : rparam) (n : nat) : bool := (p_max P <? Z.of_nat n)%Z.
Definition nearf (P : rparam) (st p : nat) : bool := negb (fgt (f64_growth p st) (f64_of_f32 (p_dup P))).

Section dup.
Context (F0 : forest) (H0 : rstart F0) (P : rparam).
Context (Hsz : forall x y, live0 F0 x -> RP F0 x = Some y -> size0 F0 x < size0 F0 y).
Notation RP := (RP F0). Notation gray0 := (gray0 F0). Notation size0 := (size0 F0). Notation live0 := (live0 F0).
Notation allvis := (allvis F0). Notation sim := (sim F0). Notation dp := (dp F0).
Notation big := (fun x => too_big P (size0 x)). Notation near := (nearf P).
Definition NN : nat := nregs F0.
Notation awalk := (awalk RP size0 big near). Notation adup := (adup RP size0 big near NN).
Notation akeep := (akeep RP size0 big near NN). Notation aend := (aend RP size0 big near NN).
Notation amid := (amid RP size0 big near NN).
Notation amore := (amore RP size0 big near NN). Notation amarked := (amarked RP size0 big near NN).
Notation astep := (astep RP size0 big near NN).
Notation anc := (rtc (up RP)). Notation sanc := (tc (up RP)).

(* a state whose surviving regions carry the flags fl *)
Record flagged (fl : rref -> nat) (s : rst) : Prop := {
  fd_sim : sim (s_F s);
  fd_reg : forall z, live0 z -> exists a, sget s z = Some a /\ g_flag a = fl z /\
    ((p_min P <= Z.of_nat (size0 z) <= p_max P)%Z -> g_par a = RP z)
}.

Lemma HLd x y : live0 x -> RP x = Some y -> live0 y /\ size0 x < size0 y /\ gray0 x < gray0 y /\ dp (Some y) < dp (Some x).
Proof.
  intros Hx E. destruct (live0_RP F0 H0 x y Hx E) as [Hy Hg]. split; auto. split; [by apply Hsz|]. split; auto.
  destruct Hx as (a & Ha & _). by eapply dp_RP.
Qed.
Lemma HNd x : live0 x -> dp (Some x) <= NN.
Proof. apply dp_le. done. Qed.
Lemma Hbigd x y : live0 x -> live0 y -> size0 x <= size0 y -> big x = true -> big y = true.
Proof. clear. intros _ _ H. unfold too_big. rewrite !Z.ltb_lt. lia. Qed.

Lemma get_dup_ok fl s n st o m : flagged fl s -> (forall z, live0 z -> fl z <= 2) ->
  (forall y, o = Some y -> live0 y /\ (p_min P <= Z.of_nat (size0 y))%Z /\ dp (Some y) < n /\ dp (Some y) <= m) -> 0 < n ->
  get_duplicated n P s st o = Some (awalk m fl st o).
Proof.
  intros HF Hfl. revert o m. induction n as [|n IH]; intros o m Ho Hn; [lia|]. cbn [get_duplicated].
  destruct o as [y|]; [|by destruct m]. destruct (Ho y eq_refl) as (Hy & Hmin & Hn' & Hm).
  destruct (fd_reg _ _ HF y Hy) as (b & Hb & Hfb & Hpb). rewrite Hb.
  destruct (sim_live F0 H0 _ y (fd_sim _ _ HF) Hy) as (b' & Hb' & _ & _ & Hsb & _). unfold sget in Hb. assert (b' = b) as -> by congruence.
  rewrite Hsb. destruct m as [|m].
  { exfalso. destruct Hy as (a & Ha & _). destruct (dp_some F0 H0 y a Ha) as [H _]. lia. }
  cbn [DupAbs.awalk]. unfold too_big at 1. destruct (Z.ltb_spec (p_max P) (Z.of_nat (size0 y))) as [|Hle]; auto.
  unfold nearf at 1. destruct (fgt _ _); cbn [negb]; auto.
  rewrite Hpb by lia. rewrite (IH (RP y) m).
  - rewrite Hfb. specialize (Hfl y Hy). f_equal. destruct (fl y) as [|[|[|]]]; auto; lia.
  - intros z Hz. destruct (HLd y z Hy Hz) as (Hlz & ? & _ & ?). split; auto. split; [lia|]. lia.
  - destruct Hy as (a & Ha & _). destruct (dp_some F0 H0 y a Ha) as [H _]. lia.
Qed.

Lemma mark_ok fl s f x : flagged fl s -> live0 x -> f <> 3 -> exists s', mark f s x = Some s' /\ flagged (<[x := f]> fl) s' /\
  s_var s' = s_var s.
Proof.
  intros HF Hx Hf. destruct (fd_reg _ _ HF x Hx) as (a & Ha & Hfa & Hpa). unfold mark. rewrite Ha. eexists. split; [done|]. split; [|done].
  constructor.
  - cbn [put_flag s_F]. apply (sim_fset F0 (s_F s) x a); auto. apply HF.
  - intros z Hz. unfold sget. cbn [put_flag s_F]. rewrite fget_fset. destruct (fd_reg _ _ HF z Hz) as (b & Hb & Hfb & Hpb). unfold sget in *.
    destruct (decide (z = x)) as [->|Hne].
    + rewrite Ha. eexists. split; [done|]. rewrite fn_lookup_insert. split; auto.
    + exists b. rewrite fn_lookup_insert_ne by done. auto.
Qed.

Lemma mark_list_ok l : forall fl s j mid, flagged fl s -> (forall x, x ∈ l -> live0 x) -> NoDup l -> exists s',
  mark_list s j mid l = Some s' /\ s_var s' = s_var s /\
  flagged (fun z => if decide (z ∈ l) then (if decide (j <= mid /\ l !! (mid - j) = Some z) then 2 else 1) else fl z) s'.
Proof.
  induction l as [|x l IH]; intros fl s j mid HF Hl Hnd; cbn [mark_list].
  - exists s. split; auto.
  - apply NoDup_cons in Hnd as [Hx Hnd].
    destruct (mark_ok fl s (if j =? mid then 2 else 1) x) as (s1 & E1 & HF1 & V1); auto.
    { apply Hl. apply elem_of_list_here. } { by destruct (j =? mid). }
    rewrite E1. destruct (IH _ s1 (S j) mid HF1) as (s2 & E2 & V2 & HF2); auto.
    { intros y Hy. apply Hl. by apply elem_of_list_further. }
    exists s2. split; auto. split; [congruence|]. constructor; [apply HF2|]. intros z Hz.
    destruct (fd_reg _ _ HF2 z Hz) as (a & Ha & Hfa & Hpa). exists a. split; auto. split; auto. rewrite Hfa.
    destruct (decide (z ∈ l)) as [Hin|Hin].
    + assert (z <> x) as Hne by (intros ->; done). rewrite (decide_True (P := z ∈ x :: l)) by (by apply elem_of_list_further).
      destruct (decide (S j <= mid /\ l !! (mid - S j) = Some z)) as [[H1 H2]|Hn].
      * rewrite decide_True; auto. split; [lia|]. replace (mid - j) with (S (mid - S j)) by lia. done.
      * destruct (decide (j <= mid /\ (x :: l) !! (mid - j) = Some z)) as [[H1 H2]|]; auto. exfalso. apply Hn.
        destruct (decide (j = mid)) as [->|]; [rewrite Nat.sub_diag in H2; injection H2 as ->; done|]. split; [lia|].
        replace (mid - j) with (S (mid - S j)) in H2 by lia. done.
    + destruct (decide (z = x)) as [->|Hne].
      * rewrite fn_lookup_insert, decide_True by apply elem_of_list_here. destruct (Nat.eqb_spec j mid) as [->|Hj].
        -- rewrite decide_True; auto. by rewrite Nat.sub_diag.
        -- rewrite decide_False; auto. intros [H1 H2]. apply Hin. replace (mid - j) with (S (mid - S j)) in H2 by lia.
           cbn in H2. by eapply elem_of_list_lookup_2.
      * rewrite fn_lookup_insert_ne by done. rewrite decide_False; auto. by intros [?|?]%elem_of_cons.
Qed.

Context (Hmono : forall x y z, live0 x -> live0 y -> live0 z -> size0 x <= size0 y -> size0 y <= size0 z ->
  near (size0 x) (size0 z) = true -> near (size0 x) (size0 y) = true).

Lemma flagged_ext fl fl' s : (forall z, live0 z -> fl z = fl' z) -> flagged fl s -> flagged fl' s.
Proof. intros He [H1 H2]. constructor; auto. intros z Hz. destruct (H2 z Hz) as (a & ? & ? & ?). exists a. by rewrite <-He. Qed.

Lemma last_nth {A} (l : list A) (x : A) : last (x :: l) = Some (List.last (x :: l) x).
Proof.
  clear. assert (forall (l : list A) x u, last (x :: l) = Some (List.last (x :: l) u)) as H; [|apply H].
  clear. induction l as [|y l IH]; intros x u; [done|]. change (last (y :: l) = Some (List.last (y :: l) u)). apply IH.
Qed.

Lemma dedup_one_ok fuel fl s count x : nregs F0 < fuel -> flagged fl s -> (forall z, live0 z -> fl z <= 2) -> live0 x ->
  (p_min P <= Z.of_nat (size0 x) <= p_max P)%Z ->
  exists s', dedup_one fuel P (s, count) x = Some (s', count + (if fl x =? 0 then 1 else 0)) /\ flagged (astep fl x) s'.
Proof.
  intros Hfuel HF Hfl Hx Hlim. destruct (fd_reg _ _ HF x Hx) as (a & Ha & Hfa & Hpa). unfold dedup_one. rewrite Ha, Hfa.
  destruct (Nat.eqb_spec (fl x) 0) as [Hf|Hf]; cbn [negb].
  2: { exists s. rewrite Nat.add_0_r. split; auto. unfold DupAbs.astep. by destruct (Nat.eqb_spec (fl x) 0). }
  assert (big x = false) as Hb. { unfold too_big. apply Z.ltb_ge. lia. }
  pose proof (mspec_ok RP size0 gray0 big near NN live0 (fun x => dp (Some x)) HLd HNd Hbigd Hmono fl x Hx Hf Hb) as HM.
  destruct (adup_spec RP size0 gray0 big near NN live0 (fun x => dp (Some x)) HLd HNd Hbigd Hmono fl x Hx Hf Hb) as [D1 D2].
  assert (forall z, live0 z -> (p_min P <= Z.of_nat (size0 z))%Z -> forall y, RP z = Some y ->
    live0 y /\ (p_min P <= Z.of_nat (size0 y))%Z /\ dp (Some y) < fuel /\ dp (Some y) <= NN) as Hpre.
  { intros z Hz Hm y Hy. destruct (HLd z y Hz Hy) as (Hly & ? & _ & _). pose proof (HNd y Hly). unfold NN in *. split; auto. lia. }
  destruct (sim_live F0 H0 _ x (fd_sim _ _ HF) Hx) as (a' & Ha' & _ & _ & Hsa & _). unfold sget in Ha. assert (a' = a) as -> by congruence.
  rewrite Hsa, Hpa by auto. rewrite (get_dup_ok fl s fuel (size0 x) (RP x) NN) by (auto; try lia; apply Hpre; auto; lia).
  cbv zeta. change (x :: awalk NN fl (size0 x) (RP x)) with (adup fl x).
  change (length (adup fl x) / 2) with (amid fl x).
  assert (forall z, z ∈ adup fl x -> live0 z /\ (p_min P <= Z.of_nat (size0 z))%Z) as Hdl.
  { intros z [->|(Hs & _)]%D1; [split; auto; lia|].
    destruct (sanc_lt RP size0 gray0 live0 (fun x => dp (Some x)) HLd x z Hx Hs) as (? & ? & _). split; auto. lia. }
  assert (amid fl x < length (adup fl x)) as Hmid.
  { unfold DupAbs.amid. unfold DupAbs.adup at 2. apply Nat.div_lt; [unfold DupAbs.adup; cbn [length]; lia|lia]. }
  assert (adup fl x !! amid fl x = Some (akeep fl x)) as Ek.
  { unfold DupAbs.akeep. destruct (lookup_lt_is_Some_2 _ _ Hmid) as [u Hu]. rewrite Hu. f_equal. symmetry.
    by apply nth_lookup_Some. }
  assert (last (adup fl x) = Some (aend fl x)) as Ee by apply last_nth.
  assert (aend fl x ∈ adup fl x) as Hein by (by apply last_Some_elem_of).
  assert (akeep fl x ∈ adup fl x) as Hkin by (by eapply elem_of_list_lookup_2).
  assert ((if 0 <? amid fl x then match adup fl x !! amid fl x, last (adup fl x) with
            | Some m, Some e => match sget s m, sget s e with
                   | Some cm, Some ce => get_duplicated fuel P s (g_size cm) (g_par ce)
                   | _, _ => None end
            | _, _ => None end else Some []) = Some (amore fl x)) as ->.
  { unfold DupAbs.amore. destruct (0 <? amid fl x); auto. rewrite Ek, Ee.
    destruct (Hdl _ Hkin) as [Hkl _]. destruct (Hdl _ Hein) as [Hel Hem].
    destruct (sim_live F0 H0 _ _ (fd_sim _ _ HF) Hkl) as (ck & Hck & _ & _ & Hsk & _). unfold sget. rewrite Hck.
    destruct (fd_reg _ _ HF _ Hel) as (ce & Hce & _ & Hpe). unfold sget in Hce. rewrite Hce, Hsk.
    rewrite Hpe.
    - apply get_dup_ok; auto; try lia. apply Hpre; auto.
    - split; auto. apply D1 in Hein as [Eq|(_ & _ & Hbe & _)]; [rewrite Eq; lia|]. apply Z.ltb_ge in Hbe. exact Hbe. }
  change (adup fl x ++ amore fl x) with (amarked fl x).
  destruct (mark_list_ok (amarked fl x) fl s 0 (amid fl x) HF) as (s' & E' & _ & HF').
  - intros z Hz. destruct (ms_in _ _ _ _ _ _ _ _ HM z Hz) as (Hxz & _).
    by apply (anc_L RP size0 gray0 live0 (fun x => dp (Some x)) HLd x).
  - apply HM.
  - rewrite E'. exists s'. split; [f_equal; f_equal; lia|]. eapply flagged_ext; [|exact HF']. intros z Hz.
    rewrite astep_spec by done. rewrite Nat.sub_0_r.
    assert (amarked fl x !! amid fl x = Some (akeep fl x)) as Ek'.
    { unfold DupAbs.amarked. by rewrite lookup_app_l. }
    rewrite Ek'. destruct (decide (z ∈ amarked fl x)) as [Hin|Hin].
    + destruct (decide (z = akeep fl x)) as [->|Hne]; [rewrite decide_True; auto; split; [lia|done]|].
      rewrite decide_False; auto. intros [_ [=]]. congruence.
    + rewrite decide_False; auto. intros ->. apply Hin, HM.
Qed.

Notation arun := (arun RP size0 big near NN).
Lemma astep_le fl x z : (forall z, fl z <= 2) -> astep fl x z <= 2.
Proof. clear. intros H. unfold DupAbs.astep. destruct (_ =? 0); auto. destruct (decide _); [lia|]. destruct (decide _); auto. Qed.
Lemma foldl_le l fl : (forall z, fl z <= 2) -> forall z, foldl astep fl l z <= 2.
Proof. clear. revert fl. induction l as [|x l IH]; intros fl H z; cbn [foldl]; auto. apply IH. intros. by apply astep_le. Qed.

Lemma dedup_ok fuel fl s l : nregs F0 < fuel -> flagged fl s -> (forall z, fl z <= 1) ->
  (forall z, z ∈ l <-> live0 z /\ fl z = 0) -> NoDup l ->
  (forall x, x ∈ l -> (p_min P <= Z.of_nat (size0 x) <= p_max P)%Z) ->
  exists s', dedup fuel P s l =
    Some (s', List.filter (fun x => arun fl l x =? 2) l, length (List.filter (fun x => arun fl l x =? 2) l)) /\
    flagged (arun fl l) s'.
Proof.
  intros Hfuel HF Hfl Hl Hnd Hlim.
  assert (forall x, x ∈ l -> big x = false) as Hb. { intros x Hx. apply Z.ltb_ge. specialize (Hlim x Hx). lia. }
  destruct (each_inv (dedup_one fuel P) l (fun pre t =>
      flagged (foldl astep fl pre) (fst t) /\
      ainv RP size0 near live0 fl (foldl astep fl pre) pre /\
      snd t = length (List.filter (fun x => foldl astep fl pre x =? 2) l)) (s, 0)) as ([s' n] & E & R1 & R2 & R3).
  - cbn [foldl fst snd]. split; auto. split.
    + apply ainv_start; auto. intros z. specialize (Hfl z). lia.
    + assert (forall k, length (List.filter (fun x => fl x =? 2) k) = 0) as ->; auto. clear - Hfl.
      induction k as [|x k IH]; auto. cbn [List.filter]. specialize (Hfl x). destruct (Nat.eqb_spec (fl x) 2); [lia|]. done.
  - intros pre x suf [s1 n1] El (I1 & I2 & I3). cbn [fst snd] in *. rewrite foldl_app. cbn [foldl].
    assert (x ∈ l) as Hxl by (rewrite El; apply elem_of_app; right; apply elem_of_list_here).
    destruct (proj1 (Hl x) Hxl) as [Hx Hfx]. set (fx := foldl astep fl pre) in *.
    assert (forall z, fx z <= 2) as Hle. { apply foldl_le. intros z. specialize (Hfl z). lia. }
    destruct (dedup_one_ok fuel fx s1 n1 x Hfuel I1) as (s2 & E2 & HF2); auto.
    exists (s2, n1 + (if fx x =? 0 then 1 else 0)). split; auto. cbn [fst snd]. split; auto. split.
    { apply (ainv_step RP size0 gray0 big near NN live0 (fun x => dp (Some x)) HLd HNd Hbigd Hmono fl l); auto. }
    rewrite I3. destruct (Nat.eqb_spec (fx x) 0) as [Hf|Hf].
    2: { rewrite astep_skip by done. lia. }
    pose proof (mspec_ok RP size0 gray0 big near NN live0 (fun x => dp (Some x)) HLd HNd Hbigd Hmono fx x Hx Hf (Hb x Hxl)) as HM.
    destruct (ms_in _ _ _ _ _ _ _ _ HM _ (ms_m _ _ _ _ _ _ _ _ HM)) as (Hxm & Hfm & _).
    assert (akeep fx x ∈ l) as Hml.
    { apply Hl. split; [by apply (anc_L RP size0 gray0 live0 (fun x => dp (Some x)) HLd x)|].
      destruct (decide (fl (akeep fx x) = 0)) as [|Hn]; auto. rewrite (ai_out _ _ _ _ _ _ _ I2 _ Hn) in Hfm. done. }
    assert (length (List.filter (fun y => astep fx x y =? 2) l) = S (length (List.filter (fun y => fx y =? 2) l))) as ->; [|lia].
    apply (filter_flip (fun y => astep fx x y =? 2) (fun y => fx y =? 2) l (akeep fx x)); auto.
    + rewrite astep_spec by done. by rewrite decide_True.
    + by rewrite Hfm.
    + intros y Hy. rewrite astep_spec by done. rewrite decide_False by done. destruct (decide (y ∈ amarked fx x)) as [Hin|]; auto.
      destruct (ms_in _ _ _ _ _ _ _ _ HM y Hin) as (_ & -> & _). done.
  - cbn [fst snd] in *. exists s'. unfold dedup. rewrite E. split; [|done]. change (foldl astep fl l) with (arun fl l) in *.
    assert (List.filter (is_valid s') l = List.filter (fun x => arun fl l x =? 2) l) as ->.
    { apply filter_same. intros x Hx. unfold is_valid. destruct (proj1 (Hl x) Hx) as [Hlx _].
      destruct (fd_reg _ _ R1 x Hlx) as (a & -> & -> & _). done. }
    by rewrite R3.
Qed.

Lemma no_dedup_ok fl s l : flagged fl s -> (forall z, z ∈ l -> live0 z) ->
  exists s', no_dedup s l = Some (s', l, length l) /\ flagged (fun z => if decide (z ∈ l) then 2 else fl z) s'.
Proof.
  intros HF Hl. destruct (each_inv (mark 2) l (fun pre t => flagged (fun z => if decide (z ∈ pre) then 2 else fl z) t) s) as (s' & E & HF').
  - eapply flagged_ext; [|exact HF]. intros z _. rewrite decide_False; auto. apply not_elem_of_nil.
  - intros pre x suf t El HI. assert (live0 x) as Hx. { apply Hl. rewrite El. apply elem_of_app. right. apply elem_of_list_here. }
    destruct (mark_ok _ t 2 x HI Hx) as (t' & -> & HI' & _); auto. exists t'. split; auto. eapply flagged_ext; [|exact HI'].
    intros z _. cbn beta. destruct (decide (z = x)) as [->|Hne].
    + rewrite fn_lookup_insert, decide_True; auto. apply elem_of_app. right. apply elem_of_list_here.
    + rewrite fn_lookup_insert_ne by done. destruct (decide (z ∈ pre)) as [|Hn].
      * rewrite decide_True; auto. apply elem_of_app. auto.
      * rewrite decide_False; auto. intros [?|H]%elem_of_app; [done|]. apply elem_of_list_singleton in H. done.
  - unfold no_dedup. rewrite E. eauto.
Qed.
End dup.
