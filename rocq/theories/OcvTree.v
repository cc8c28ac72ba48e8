(* The histories of the OpenCV3-style extraction: lists of pixels, the forest of
   histories, and what updateTree and checkAndCapture do to it. *)
From stdpp Require Import sorting relations functions list_numbers list.
From Coq Require Import NArith ZArith SpecFloat.
From Verif Require Import FloodModel FloatModel RectModel RecogModel CvExtract OcvModel.
Local Open Scope nat_scope.

(* ---------- lists of pixels ---------- *)
(* the next pixel; 0 = none *)
Definition onext (pix : list N) (x : nat) : nat :=
  match pix !! x with Some v => N.to_nat (get_next v) | None => 0 end.
(* L is linked by next *)
Fixpoint ochain (nx : nat -> nat) (L : list nat) : Prop :=
  match L with
  | x :: ((y :: _) as L') => nx x = y /\ y <> 0 /\ ochain nx L'
  | _ => True
  end.
(* links that are set stay as they are *)
Definition next_ext (nx nx' : nat -> nat) : Prop := forall x, nx x <> 0 -> nx' x = nx x.

Lemma next_ext_refl nx : next_ext nx nx.
Proof. by intros x. Qed.
Lemma next_ext_trans nx nx1 nx2 : next_ext nx nx1 -> next_ext nx1 nx2 -> next_ext nx nx2.
Proof. intros H1 H2 x Hx. rewrite H2; [by apply H1|]. by rewrite H1. Qed.
Lemma ochain_ext nx nx' L : next_ext nx nx' -> ochain nx L -> ochain nx' L.
Proof.
  intros He. induction L as [|x [|y L] IH]; intros H; [done|done|].
  destruct H as (<- & H2 & H3). split; [|split; [done|by apply IH]]. by apply He.
Qed.
Lemma ochain_snoc nx L t x : ochain nx L -> last L = Some t -> nx t = x -> x <> 0 -> ochain nx (L ++ [x]).
Proof.
  induction L as [|z [|y L] IH]; intros H Hl Ht Hx; [done| |].
  - cbn in Hl. simplify_eq. cbn. auto.
  - destruct H as (H1 & H2 & H3). cbn [app ochain]. split; [done|]. split; [done|]. by apply IH.
Qed.
Lemma ochain_app nx L1 L2 t h : ochain nx L1 -> ochain nx L2 -> last L1 = Some t -> head L2 = Some h -> nx t = h -> h <> 0 ->
  ochain nx (L1 ++ L2).
Proof.
  induction L1 as [|z [|y L] IH]; intros H H' Hl Hh Ht Hx; [done| |].
  - cbn in Hl. destruct L2 as [|h' L2]; [done|]. cbn in Hh. simplify_eq. cbn [app ochain]. auto.
  - destruct H as (H1 & H2 & H3). cbn [app ochain]. split; [done|]. split; [done|]. by apply IH.
Qed.

(* SPEC: coordinates of a pixel *)
Definition oxy (step p : nat) : Z * Z := (Z.of_nat (p mod step), Z.of_nat (p / step)).

Lemma opixels_ok pix step L p : ochain (onext pix) L -> head L = Some p -> Forall (fun x => x < length pix) L ->
  opixels pix step p (length L) = Some (map (oxy step) L).
Proof.
  revert p. induction L as [|x L IH]; intros p Hc Hh HF; [done|]. cbn in Hh. injection Hh as ->.
  inversion HF as [|? ? Hp HF']; subst.
  cbn [length opixels map]. destruct (lookup_lt_is_Some_2 pix p Hp) as [v Hv]. rewrite Hv.
  assert (oxy step p = (Z.of_nat (p - p / step * step), Z.of_nat (p / step))) as <-.
  { unfold oxy. destruct step as [|step]; [cbn; do 2 f_equal; lia|]. rewrite Nat.mod_eq by lia. by rewrite (Nat.mul_comm (S step)). }
  destruct L as [|y L]; [done|]. destruct Hc as (H1 & _ & H3).
  unfold onext in H1. rewrite Hv in H1. rewrite H1. by rewrite (IH y).
Qed.

(* ---------- bounding boxes ---------- *)
Lemma obox_ok l : l <> [] -> (forall q, q ∈ l -> (int_min <= fst q <= int_max /\ int_min <= snd q <= int_max)%Z) ->
  let '(x0, y0, x1, y1) := obox l in bounding l (Rect x0 y0 (x1 - x0 + 1) (y1 - y0 + 1)).
Proof.
  set (f := fun '(x0, y0, x1, y1) '(x, y) => (Z.min x0 x, Z.min y0 y, Z.max x1 x, Z.max y1 y) : Z * Z * Z * Z).
  assert (forall l pre a b c d, pre <> [] -> tight pre a c b d ->
    let '(x0, y0, x1, y1) := foldl f (a, b, c, d) l in tight (pre ++ l) x0 x1 y0 y1) as H.
  { clear. induction l as [|[x y] l IH]; intros pre a b c d Hp Ht; cbn [foldl]; [by rewrite app_nil_r|].
    replace (pre ++ (x, y) :: l) with ((pre ++ [(x, y)]) ++ l) by by rewrite <-app_assoc.
    apply IH; [by destruct pre|]. destruct Ht as (H1 & (a1 & A1 & E1) & (a2 & A2 & E2) & (a3 & A3 & E3) & (a4 & A4 & E4)).
    assert (forall q, q ∈ pre -> q ∈ pre ++ [(x, y)]) as Hl by (intros; apply elem_of_app; auto).
    assert ((x, y) ∈ pre ++ [(x, y)]) as Hr by (apply elem_of_app; right; left).
    split; [|split; [|split; [|split]]].
    - intros q [Hq|Hq%elem_of_list_singleton]%elem_of_app; [destruct (H1 q Hq); lia|]. subst q. cbn [fst snd]. lia.
    - destruct (Z.min_spec a x) as [[? ->]|[? ->]]; eauto.
    - destruct (Z.max_spec c x) as [[? ->]|[? ->]]; eauto.
    - destruct (Z.min_spec b y) as [[? ->]|[? ->]]; eauto.
    - destruct (Z.max_spec d y) as [[? ->]|[? ->]]; eauto. }
  destruct l as [|[x y] l]; [done|]. intros _ Hr. unfold obox. fold f. cbn [foldl].
  destruct (Hr (x, y)) as [Hx Hy]; [left|]. cbn [fst snd] in Hx, Hy.
  assert (f (int_max, int_max, int_min, int_min) (x, y) = (x, y, x, y)) as -> by (unfold f; f_equal; [f_equal; [f_equal|]|]; lia).
  pose proof (H l [(x, y)] x y x y) as Ht. destruct (foldl f (x, y, x, y) l) as [[[x0 y0] x1] y1].
  unfold bounding. cbn [x_left x_top x_w x_h].
  replace (x0 + (x1 - x0 + 1) - 1)%Z with x1 by lia. replace (y0 + (y1 - y0 + 1) - 1)%Z with y1 by lia.
  apply Ht; [done|]. clear. split; [|repeat split; exists (x, y); (split; [left|done])].
  intros q Hq%elem_of_list_singleton. subst q. cbn [fst snd]. lia.
Qed.

(* ---------- the forest ---------- *)
(* everything but variation and the checked flag *)
Definition shape (a : ohist) := (h_child a, h_parent a, h_next a, h_val a, h_size a, h_head a).
Notation same_shape hs hs' := (map shape hs = map shape hs').

Lemma shape_at hs hs' i a : same_shape hs hs' -> hs !! i = Some a -> exists b, hs' !! i = Some b /\ shape a = shape b.
Proof.
  intros H Ha. assert (map shape hs !! i = Some (shape a)) as Hx by (change map with (@fmap list list_fmap ohist _) || idtac; rewrite list_lookup_fmap, Ha; done).
  rewrite H in Hx. rewrite list_lookup_fmap in Hx. destruct (hs' !! i) as [b|]; [|done]. exists b. split; [done|]. cbn in Hx. congruence.
Qed.
Lemma shape_len hs hs' : same_shape hs hs' -> length hs = length hs'.
Proof. intros H. rewrite <-(map_length shape hs), H. by rewrite map_length. Qed.
Lemma shape_insert hs i a b : hs !! i = Some a -> shape b = shape a -> same_shape hs (<[i := b]> hs).
Proof.
  intros Ha Hs. symmetry. apply list_eq. intros j. rewrite !list_lookup_fmap.
  destruct (decide (i = j)) as [<-|]; [|by rewrite list_lookup_insert_ne].
  rewrite list_lookup_insert by (by eapply lookup_lt_Some). rewrite Ha. cbn. congruence.
Qed.
Lemma shape_inv a b : shape a = shape b ->
  h_child a = h_child b /\ h_parent a = h_parent b /\ h_next a = h_next b /\ h_val a = h_val b /\ h_size a = h_size b /\ h_head a = h_head b.
Proof. unfold shape. intros H. by simplify_eq. Qed.

(* the children from o are ks *)
Fixpoint schain (hs : list ohist) (o : option nat) (ks : list nat) : Prop :=
  match ks with
  | [] => o = None
  | k :: ks' => o = Some k /\ exists b, hs !! k = Some b /\ schain hs (h_next b) ks'
  end.
Lemma schain_shape hs hs' o ks : same_shape hs hs' -> schain hs o ks -> schain hs' o ks.
Proof.
  intros H. revert o. induction ks as [|k ks IH]; intros o; [done|]. intros (-> & b & Hb & Hk). split; [done|].
  destruct (shape_at hs hs' k b H Hb) as (b' & Hb' & Hs). exists b'. split; [done|].
  apply shape_inv in Hs as (_ & _ & <- & _). by apply IH.
Qed.

Section forest.
(* number of pixels, the regions already complete: level and pixels, row step, limits *)
Context (area step : nat) (P : rparam).
Context (Harea : (Z.of_nat area <= int_max)%Z).

(* a history whose list is complete: it lists the region rid *)
Definition hclosed (nx : nat -> nat) (RL : nat -> option (nat * list nat)) (a : ohist) (r : nat) : Prop :=
  exists L l, RL r = Some (h_val a, l) /\ L ≡ₚ l /\ length L = h_size a /\ ochain nx L /\ head L = Some (h_head a) /\
    Forall (fun x => x < area) L.

Record forest_ok (nx : nat -> nat) (RL : nat -> option (nat * list nat)) (hs : list ohist) (rids : list nat) : Prop := {
  fo_len : length rids = length hs;
  fo_nd : NoDup rids;
  fo_val : forall i a, hs !! i = Some a -> h_val a <= 255;
  fo_par : forall i a p, hs !! i = Some a -> h_parent a = Some p -> exists b, hs !! p = Some b /\ h_val a < h_val b;
  fo_closed : forall i a, hs !! i = Some a -> h_parent a <> None -> exists r, rids !! i = Some r /\ hclosed nx RL a r;
  fo_kids : forall i a, hs !! i = Some a -> exists ks, schain hs (h_child a) ks /\ NoDup ks /\
    forall k, k ∈ ks -> exists b, hs !! k = Some b /\ h_parent b = Some i
}.

(* a captured record lists the region of its history *)
Definition rec_ok (RL : nat -> option (nat * list nat)) (r : nat) (m : omser) : Prop :=
  exists g l L, RL r = Some (g, l) /\ L ≡ₚ l /\ om_pts m = map (oxy step) L /\ om_size m = length L /\
    (p_min P <= Z.of_nat (length L) <= p_max P)%Z /\ bounding (om_pts m) (om_rect m).

Definition out_ok (fin : Prop) (RL : nat -> option (nat * list nat)) (rids : list nat) (t : otree) : Prop :=
  ot_total t = (N.of_nat (sum_list (map om_size (ot_out t))) mod 2 ^ 32)%N /\
  exists caps, NoDup caps /\
    Forall2 (fun i m => exists r, rids !! i = Some r /\ rec_ok RL r m) caps (ot_out t) /\
    forall i, i ∈ caps -> exists a, ot_h t !! i = Some a /\ h_checked a = true /\ (h_parent a <> None \/ fin).

Definition tree_ok (fin : Prop) nx RL rids (t : otree) : Prop :=
  forest_ok nx RL (ot_h t) rids /\ out_ok fin RL rids t.

Lemma hclosed_shape nx RL a b r : shape a = shape b -> hclosed nx RL a r -> hclosed nx RL b r.
Proof.
  intros (E1 & E2 & E3 & E4 & E5 & E6)%shape_inv (L & l & H). exists L, l. by rewrite <-E4, <-E5, <-E6.
Qed.
Lemma forest_shape nx RL hs hs' rids : same_shape hs hs' -> forest_ok nx RL hs rids -> forest_ok nx RL hs' rids.
Proof.
  intros Hs [F1 F2 F3 F4 F5 F6]. pose proof (eq_sym Hs) as Hs'. constructor; auto.
  - rewrite F1. by apply shape_len.
  - intros i b Hb. destruct (shape_at _ _ _ _ Hs' Hb) as (a & Ha & E). apply shape_inv in E as (_ & _ & _ & -> & _). eauto.
  - intros i b p Hb Hp. destruct (shape_at _ _ _ _ Hs' Hb) as (a & Ha & E). apply shape_inv in E as (_ & E2 & _ & -> & _).
    rewrite E2 in Hp. destruct (F4 i a p Ha Hp) as (c & Hc & Hlt). destruct (shape_at _ _ _ _ Hs Hc) as (d & Hd & E).
    apply shape_inv in E as (_ & _ & _ & E4 & _). exists d. split; [done|]. lia.
  - intros i b Hb Hp. destruct (shape_at _ _ _ _ Hs' Hb) as (a & Ha & E). pose proof (shape_inv _ _ E) as (_ & E2 & _).
    rewrite E2 in Hp. destruct (F5 i a Ha Hp) as (r & Hr & Hc). exists r. split; [done|]. by eapply hclosed_shape.
  - intros i b Hb. destruct (shape_at _ _ _ _ Hs' Hb) as (a & Ha & E). apply shape_inv in E as (-> & _).
    destruct (F6 i a Ha) as (ks & H1 & H2 & H3). exists ks. split; [by eapply schain_shape|]. split; [done|].
    intros k Hk. destruct (H3 k Hk) as (c & Hc & Hp). destruct (shape_at _ _ _ _ Hs Hc) as (d & Hd & E).
    apply shape_inv in E as (_ & E2 & _). exists d. split; [done|]. congruence.
Qed.

(* more regions complete, more links set *)
Lemma hclosed_mono nx nx' RL RL' a r : next_ext nx nx' -> (forall r x, RL r = Some x -> RL' r = Some x) ->
  hclosed nx RL a r -> hclosed nx' RL' a r.
Proof.
  intros Hn HR (L & l & H1 & H2 & H3 & H4 & H5). exists L, l. split; [by apply HR|]. split; [done|]. split; [done|].
  split; [by eapply ochain_ext|done].
Qed.
Lemma tree_mono fin nx nx' RL RL' rids t : next_ext nx nx' -> (forall r x, RL r = Some x -> RL' r = Some x) ->
  tree_ok fin nx RL rids t -> tree_ok fin nx' RL' rids t.
Proof.
  intros Hn HR [[F1 F2 F3 F4 F5 F6] (O0 & caps & O1 & O2 & O3)]. split.
  - constructor; auto. intros i a Ha Hp. destruct (F5 i a Ha Hp) as (r & Hr & Hc). exists r. split; [done|]. by eapply hclosed_mono.
  - split; [done|]. exists caps. split; [done|]. split; [|done]. eapply Forall2_impl; [exact O2|]. intros i m (r & Hr & g & l & L & H1 & H2).
    exists r. split; [done|]. exists g, l, L. split; [by apply HR|done].
Qed.

Context (nx : nat -> nat) (RL : nat -> option (nat * list nat)) (rids : list nat).

Lemma kids_short hs i a ks : forest_ok nx RL hs rids -> hs !! i = Some a -> schain hs (h_child a) ks -> NoDup ks ->
  length ks <= length hs.
Proof.
  intros F Ha Hc Hn. rewrite <-(seq_length (length hs) 0). apply submseteq_length, NoDup_submseteq; [done|].
  assert (forall o ks, schain hs o ks -> forall k, k ∈ ks -> k < length hs) as H.
  { clear. intros o ks. revert o. induction ks as [|k ks IH]; intros o; [intros _ k Hk; by apply elem_of_nil in Hk|].
    intros (_ & b & Hb & Hk) x [->|Hx]%elem_of_cons; [by eapply lookup_lt_Some|by eapply IH]. }
  intros k Hk. apply elem_of_seq. split; [lia|]. by eapply H.
Qed.
Lemma okids_total hs a o ks m : schain hs o ks -> length ks <= m -> exists r, okids_better P hs a o m = Some r.
Proof.
  revert o m. induction ks as [|k ks IH]; intros o m Hc Hm.
  - cbn in Hc. subst o. exists false. by destruct m.
  - destruct Hc as (-> & b & Hb & Hc). destruct m as [|m]; [cbn in Hm; lia|]. cbn [okids_better]. rewrite Hb.
    destruct (_ && _); [eauto|]. apply (IH (h_next b) m); [done|]. cbn in Hm. lia.
Qed.

Lemma oxy_range L : Forall (fun x => x < area) L -> forall q, q ∈ map (oxy step) L -> (int_min <= fst q <= int_max /\ int_min <= snd q <= int_max)%Z.
Proof.
  intros HF q Hq. apply elem_of_list_fmap in Hq as (p & -> & Hp). rewrite Forall_forall in HF. specialize (HF p Hp).
  unfold oxy, int_min, int_max in *. cbn [fst snd].
  assert (p mod step <= p) by (destruct step; [cbn; lia|apply Nat.mod_le; lia]).
  assert (p / step <= p) by (destruct step; [cbn; lia|apply Nat.div_le_upper_bound; nia]). lia.
Qed.

Context (pix : list N) (Hpix : length pix = area) (Hnx : nx = onext pix).

Lemma ocapture_ok fin t i a r : tree_ok fin nx RL rids t -> ot_h t !! i = Some a -> rids !! i = Some r -> hclosed nx RL a r ->
  h_parent a <> None \/ fin -> exists t', ocapture P pix step i t = Some t' /\ tree_ok fin nx RL rids t' /\ same_shape (ot_h t) (ot_h t').
Proof.
  intros HT Ha Hr Hcl Hp. unfold ocapture. rewrite Ha. destruct (h_checked a) eqn:Hck; [by exists t|]. destruct HT as [HF HO].
  assert (same_shape (ot_h t) (<[i := h_set_checked a]> (ot_h t))) as Hs by (eapply shape_insert; [exact Ha|done]).
  set (hs := <[i := h_set_checked a]> (ot_h t)) in *.
  pose proof (forest_shape nx RL _ hs rids Hs HF) as HF'.
  assert (hs !! i = Some (h_set_checked a)) as Hi by (apply list_lookup_insert; by eapply lookup_lt_Some).
  destruct HO as (O0 & caps & O1 & O2 & O3).
  assert (i ∉ caps) as Hic. { intros Hin. destruct (O3 i Hin) as (a' & Ha' & Hc' & _). rewrite Ha in Ha'. injection Ha' as <-. rewrite Hck in Hc'. discriminate. }
  assert (forall j, j ∈ caps -> exists a, hs !! j = Some a /\ h_checked a = true /\ (h_parent a <> None \/ fin)) as O3'.
  { intros j Hj. destruct (O3 j Hj) as (a' & Ha' & H1 & H2). exists a'. split; [|done]. unfold hs. rewrite list_lookup_insert_ne; [done|]. by intros ->. }
  assert (tree_ok fin nx RL rids (OTree hs (ot_out t) (ot_total t))) as Hskip.
  { split; [done|]. split; [done|]. exists caps. done. }
  destruct (_ || _ || _ || _) eqn:Hlim; [eauto|].
  assert (exists b, (if fge (p_nms P) fzero then
                    match (if fge (h_var a) fzero then okids_better P hs a (h_child a) (length hs) else Some false) with
                    | Some true => Some true
                    | Some false => oparent_better P hs a
                    | None => None
                    end else Some false) = Some b) as (b & ->).
  { destruct (fge (p_nms P) fzero); [|eauto].
    assert (exists b, (if fge (h_var a) fzero then okids_better P hs a (h_child a) (length hs) else Some false) = Some b) as (b & ->).
    { destruct (fge (h_var a) fzero); [|eauto]. destruct (fo_kids _ _ _ _ HF' i _ Hi) as (ks & K1 & K2 & _).
      apply (okids_total hs a _ ks); [done|]. by eapply kids_short. }
    destruct b; [eauto|]. unfold oparent_better. destruct (h_parent a) as [p|] eqn:Ep; [|eauto].
    destruct (fo_par _ _ _ _ HF' i _ p Hi Ep) as (c & -> & _). eauto. }
  destruct b; [eauto|].
  destruct Hcl as (L & l & C1 & C2 & C3 & C4 & C5 & C6).
  subst nx. rewrite <-C3. rewrite (opixels_ok pix step L) by (try done; by rewrite Hpix).
  destruct L as [|x L]; [done|]. set (LL := x :: L) in *.
  destruct (Nat.eqb_spec (length LL) 0) as [|_]; [done|].
  pose proof (obox_ok (map (oxy step) LL)) as Hb. destruct (obox (map (oxy step) LL)) as [[[x0 y0] x1] y1].
  eexists. split; [done|]. cbn [ot_h ot_out ot_total]. split; [|done]. split; [done|]. split.
  - cbn [ot_total ot_out]. rewrite map_app. cbn [map]. rewrite O0.
    assert (forall l x, sum_list (l ++ [x]) = sum_list l + x) as Hsum. { clear. induction l as [|y l IH]; intros x; cbn; [lia|]. rewrite IH. lia. }
    rewrite Hsum. cbn [om_size]. rewrite Nat2N.inj_add. by rewrite N.add_mod_idemp_l.
  - cbn [ot_h ot_out]. exists (caps ++ [i]). split; [|split].
    + apply NoDup_app. split; [done|]. split; [|apply NoDup_singleton]. intros j Hj ->%elem_of_list_singleton. done.
    + apply Forall2_app; [done|]. constructor; [|constructor]. exists r. split; [done|].
      exists (h_val a), l, LL. split; [done|]. split; [done|]. split; [done|]. split; [done|]. split.
      * apply orb_false_iff in Hlim as [[[H1 H2]%orb_false_iff _]%orb_false_iff _]. rewrite C3. rewrite Z.ltb_ge in H1. rewrite Z.ltb_ge in H2. lia.
      * apply Hb; [done|]. by apply oxy_range.
    + intros j [Hj| ->%elem_of_list_singleton]%elem_of_app; [auto|]. exists (h_set_checked a). split; [done|]. split; [done|]. done.
Qed.

Lemma ocapture_kids_ok fin i ks o m t : tree_ok fin nx RL rids t -> schain (ot_h t) o ks -> length ks <= m ->
  (forall k, k ∈ ks -> exists b, ot_h t !! k = Some b /\ h_parent b = Some i) ->
  exists t', ocapture_kids P pix step o m t = Some t' /\ tree_ok fin nx RL rids t' /\ same_shape (ot_h t) (ot_h t').
Proof.
  revert o m t. induction ks as [|k ks IH]; intros o m t HT Hc Hm Hk.
  - cbn in Hc. subst o. exists t. by destruct m.
  - destruct Hc as (-> & b & Hb & Hc). destruct m as [|m]; [cbn in Hm; lia|]. cbn [ocapture_kids].
    destruct (Hk k) as (b' & Hb' & Hp); [left|]. rewrite Hb in Hb'. injection Hb' as <-.
    destruct (fo_closed _ _ _ _ (proj1 HT) k b Hb) as (r & Hr & Hcl); [congruence|].
    destruct (ocapture_ok fin t k b r HT Hb Hr Hcl) as (t1 & -> & HT1 & Hs1); [left; congruence|].
    destruct (shape_at _ _ _ _ Hs1 Hb) as (b1 & Hb1 & E). rewrite Hb1. apply shape_inv in E as (_ & _ & <- & _).
    destruct (IH (h_next b) m t1) as (t' & Ht' & HT' & Hs').
    + done.
    + by eapply schain_shape.
    + cbn in Hm. lia.
    + intros j Hj. destruct (Hk j) as (c & Hcj & Hpj); [by right|]. destruct (shape_at _ _ _ _ Hs1 Hcj) as (c1 & Hc1 & E).
      apply shape_inv in E as (_ & E2 & _). exists c1. split; [done|]. congruence.
    + exists t'. split; [done|]. split; [done|]. congruence.
Qed.

(* parent links *)
Definition hup (hs : list ohist) (x p : nat) : Prop := exists a, hs !! x = Some a /\ h_parent a = Some p.
Lemma hup_shape hs hs' x p : same_shape hs hs' -> rtc (hup hs) x p -> rtc (hup hs') x p.
Proof.
  intros Hs. induction 1 as [x|x y z (a & Ha & Hp) _ IH]; [apply rtc_refl|]. eapply rtc_l; [|exact IH].
  destruct (shape_at _ _ _ _ Hs Ha) as (b & Hb & E). apply shape_inv in E as (_ & E & _). exists b. split; [done|congruence].
Qed.

Lemma oclimb_ok hs hi n i a : forest_ok nx RL hs rids -> hs !! i = Some a -> 256 <= h_val a + n ->
  exists y b, oclimb hs hi i n = Some y /\ hs !! y = Some b.
Proof.
  intros HF. revert i a. induction n as [|n IH]; intros i a Ha Hn; cbn [oclimb]; rewrite Ha.
  - pose proof (fo_val _ _ _ _ HF i a Ha). lia.
  - destruct (h_parent a) as [p|] eqn:Ep; [|eauto]. destruct (fo_par _ _ _ _ HF i a p Ha Ep) as (b & Hb & Hlt). rewrite Hb.
    destruct (_ <=? _)%Z; [|eauto]. apply (IH p b); [done|lia].
Qed.
Lemma odescend_ok hs lo n i a : forest_ok nx RL hs rids -> hs !! i = Some a -> h_val a <= n ->
  exists x b, odescend hs lo i n = Some x /\ hs !! x = Some b /\ rtc (hup hs) x i.
Proof.
  intros HF. revert i a. induction n as [|n IH]; intros i a Ha Hn; cbn [odescend]; rewrite Ha.
  - destruct (h_child a) as [c|] eqn:Ec; [|by eauto using rtc_refl].
    destruct (fo_kids _ _ _ _ HF i a Ha) as (ks & K1 & _ & K3). rewrite Ec in K1. destruct ks as [|k ks]; [done|].
    destruct K1 as ([= <-] & b & Hb & _). rewrite Hb. destruct (K3 c) as (b' & Hb' & Hp); [left|]. rewrite Hb in Hb'. injection Hb' as <-.
    destruct (fo_par _ _ _ _ HF c b i Hb Hp) as (a' & Ha' & Hlt). rewrite Ha in Ha'. injection Ha' as <-. lia.
  - destruct (h_child a) as [c|] eqn:Ec; [|by eauto using rtc_refl].
    destruct (fo_kids _ _ _ _ HF i a Ha) as (ks & K1 & _ & K3). rewrite Ec in K1. destruct ks as [|k ks]; [done|].
    destruct K1 as ([= <-] & b & Hb & _). rewrite Hb. destruct (K3 c) as (b' & Hb' & Hp); [left|]. rewrite Hb in Hb'. injection Hb' as <-.
    destruct (fo_par _ _ _ _ HF c b i Hb Hp) as (a' & Ha' & Hlt). rewrite Ha in Ha'. injection Ha' as <-.
    destruct (_ <=? _)%Z; [|by eauto using rtc_refl].
    destruct (IH c b) as (x & bx & H1 & H2 & H3); [done|lia|]. exists x, bx. split; [done|]. split; [done|].
    eapply rtc_r; [exact H3|]. by exists b.
Qed.
Lemma oclimb_to_ok hs lo n i x a : forest_ok nx RL hs rids -> hs !! i <> None -> hs !! x = Some a -> rtc (hup hs) x i -> 256 <= h_val a + n ->
  exists y b, oclimb_to hs i lo x n = Some y /\ hs !! y = Some b /\ rtc (hup hs) y i.
Proof.
  intros HF Hi. revert x a. induction n as [|n IH]; intros x a Ha Hu Hn.
  - pose proof (fo_val _ _ _ _ HF x a Ha). lia.
  - cbn [oclimb_to]. destruct (Nat.eqb_spec x i) as [->|Hxi]; [by eauto|]. rewrite Ha.
    destruct (_ <? _)%Z; [|by eauto].
    inversion Hu as [|? p ? (a' & Ha' & Hp) Hu']; subst; [done|]. rewrite Ha in Ha'. injection Ha' as <-. rewrite Hp.
    destruct (fo_par _ _ _ _ HF x a p Ha Hp) as (b & Hb & Hlt). apply (IH p b); [done|done|lia].
Qed.

Lemma oupdate_this_ok fin final t i a r hh : tree_ok fin nx RL rids t -> ot_h t !! i = Some a -> rids !! i = Some r -> hclosed nx RL a r ->
  (final = true -> fin) ->
  (forall x y, hh = Some (x, y) -> (exists b, ot_h t !! x = Some b) /\ (exists b, ot_h t !! y = Some b) /\ rtc (hup (ot_h t)) x i) ->
  exists t' x y, oupdate_this P pix step final i hh t = Some (t', Some (x, y)) /\ tree_ok fin nx RL rids t' /\ same_shape (ot_h t) (ot_h t') /\
    (exists b, ot_h t !! x = Some b) /\ (exists b, ot_h t !! y = Some b) /\ rtc (hup (ot_h t)) x i.
Proof.
  intros HT Ha Hr Hcl Hfin Hhh. unfold oupdate_this. rewrite Ha. pose proof (proj1 HT) as HF.
  pose proof (fo_val _ _ _ _ HF i a Ha) as Hv.
  assert (exists x b, (match hh with Some (x, _) => oclimb_to (ot_h t) i (Z.of_nat (h_val a) - p_delta P) x depth
    | None => odescend (ot_h t) (Z.of_nat (h_val a) - p_delta P) i depth end) = Some x /\ ot_h t !! x = Some b /\ rtc (hup (ot_h t)) x i) as (x & b0 & -> & Hb0 & Hx).
  { destruct hh as [[x y]|].
    - destruct (Hhh x y eq_refl) as ((bx & Hbx) & _ & Hu). apply (oclimb_to_ok _ _ depth i x bx); auto; [congruence|unfold depth; lia].
    - apply (odescend_ok _ _ depth i a); auto. unfold depth. lia. }
  assert (exists y b, match (match hh with Some (_, y) => match ot_h t !! y with Some b => Some (if h_size a <? h_size b then y else i) | None => None end
    | None => Some i end) with Some y => oclimb (ot_h t) (Z.of_nat (h_val a) + p_delta P) y depth | None => None end = Some y /\ ot_h t !! y = Some b) as (y & b1 & -> & Hb1).
  { destruct hh as [[x' y']|].
    - destruct (Hhh x' y' eq_refl) as (_ & (by' & Hby) & _). rewrite Hby.
      destruct (h_size a <? h_size by'); [apply (oclimb_ok _ _ depth y' by')|apply (oclimb_ok _ _ depth i a)]; auto; unfold depth; lia.
    - apply (oclimb_ok _ _ depth i a); auto. unfold depth. lia. }
  rewrite Hb0, Hb1. destruct (_ && _ && _); [by eauto 12|].
  set (a' := h_set_var a _). assert (same_shape (ot_h t) (<[i := a']> (ot_h t))) as Hs by (eapply shape_insert; [exact Ha|done]).
  set (t1 := OTree (<[i := a']> (ot_h t)) (ot_out t) (ot_total t)).
  assert (tree_ok fin nx RL rids t1) as HT1.
  { split; [by eapply forest_shape|]. destruct HT as [_ (O0 & caps & O1 & O2 & O3)]. split; [done|]. exists caps. split; [done|]. split; [done|].
    intros j Hj. destruct (O3 j Hj) as (c & Hc & H1 & H2). cbn [ot_h t1]. destruct (decide (i = j)) as [<-|].
    - rewrite list_lookup_insert by (by eapply lookup_lt_Some). exists a'. rewrite Ha in Hc. injection Hc as <-. done.
    - rewrite list_lookup_insert_ne by done. eauto. }
  destruct (fo_kids _ _ _ _ HF i a Ha) as (ks & K1 & K2 & K3).
  destruct (ocapture_kids_ok fin i ks (h_child a) (length (ot_h t)) t1) as (t2 & -> & HT2 & Hs2).
  { done. } { eapply schain_shape; [exact Hs|done]. } { by apply (kids_short _ i a). }
  { intros k Hk. destruct (K3 k Hk) as (c & Hc & Hp). destruct (shape_at _ _ _ _ Hs Hc) as (c1 & Hc1 & E). apply shape_inv in E as (_ & E & _).
    exists c1. split; [done|congruence]. }
  destruct final; cbn [andb].
  - destruct (h_parent a) eqn:Ep.
    + exists t2, x, y. split; [done|]. split; [done|]. split; [exact (eq_trans Hs Hs2)|]. eauto.
    + destruct (shape_at _ _ _ _ (eq_trans Hs Hs2) Ha) as (a2 & Ha2 & E).
      destruct (ocapture_ok fin t2 i a2 r) as (t3 & -> & HT3 & Hs3); [done|done|done|by eapply hclosed_shape|right; auto|].
      exists t3, x, y. split; [done|]. split; [done|]. split; [|eauto]. exact (eq_trans (eq_trans Hs Hs2) Hs3).
  - exists t2, x, y. split; [done|]. split; [done|]. split; [exact (eq_trans Hs Hs2)|eauto].
Qed.

Lemma oupdate_ok (fin : Prop) final n : (final = true -> fin) -> forall t i a r, tree_ok fin nx RL rids t -> ot_h t !! i = Some a -> rids !! i = Some r -> hclosed nx RL a r ->
  h_val a < n ->
  exists t' o, oupdate P pix step n final i t = Some (t', o) /\ tree_ok fin nx RL rids t' /\ same_shape (ot_h t) (ot_h t') /\
    forall x y, o = Some (x, y) -> (exists b, ot_h t !! x = Some b) /\ (exists b, ot_h t !! y = Some b) /\ rtc (hup (ot_h t)) x i.
Proof.
  intros Hfin. induction n as [|n IH]; intros t i a r HT Ha Hr Hcl Hn; [lia|]. cbn [oupdate]. rewrite Ha.
  destruct (fge (h_var a) fzero). { exists t, None. repeat split; try done. all: apply HT. }
  pose proof (fo_kids _ _ _ _ (proj1 HT) i a Ha) as (ks & K1 & K2 & K3).
  pose proof (kids_short _ _ _ _ (proj1 HT) Ha K1 K2) as Hlen.
  set (loop := fix loop (m : nat) (c : option nat) (first : bool) (hh : option (nat * nat)) (s : otree) {struct m}
            : option (otree * option (nat * nat) * bool) := _).
  assert (forall ks m c first hh s, schain (ot_h s) c ks -> length ks <= m -> same_shape (ot_h t) (ot_h s) -> tree_ok fin nx RL rids s ->
    (forall k, k ∈ ks -> exists b, ot_h s !! k = Some b /\ h_parent b = Some i) ->
    (forall x y, hh = Some (x, y) -> (exists b, ot_h t !! x = Some b) /\ (exists b, ot_h t !! y = Some b) /\ rtc (hup (ot_h t)) x i) ->
    exists s' hh' fl, loop m c first hh s = Some (s', hh', fl) /\ same_shape (ot_h t) (ot_h s') /\ tree_ok fin nx RL rids s' /\
    (forall x y, hh' = Some (x, y) -> (exists b, ot_h t !! x = Some b) /\ (exists b, ot_h t !! y = Some b) /\ rtc (hup (ot_h t)) x i)) as Hloop.
  { clear K1 K2 K3 Hlen ks. induction ks as [|k ks IHk]; intros m c first hh s Hc Hm Hs HTs Hk Hhh.
    - cbn in Hc. subst c. destruct m; cbn [loop]; by eauto 10.
    - destruct Hc as (-> & b & Hb & Hc). destruct m as [|m]; [cbn in Hm; lia|]. cbn [loop]. rewrite Hb.
      destruct (Hk k) as (b' & Hb' & Hp); [left|]. rewrite Hb in Hb'. injection Hb' as <-.
      assert (exists s1 hh1, (if fgt fzero (h_var b) then match oupdate P pix step n final k s with
         | Some (s', o) => Some (s', if first then o else hh) | None => None end else Some (s, hh)) = Some (s1, hh1) /\
         same_shape (ot_h t) (ot_h s1) /\ tree_ok fin nx RL rids s1 /\
         (forall x y, hh1 = Some (x, y) -> (exists b, ot_h t !! x = Some b) /\ (exists b, ot_h t !! y = Some b) /\ rtc (hup (ot_h t)) x i)) as (s1 & hh1 & -> & Hs1 & HT1 & Hh1).
      { destruct (fgt fzero (h_var b)); [|by eauto 10].
        destruct (fo_closed _ _ _ _ (proj1 HTs) k b Hb) as (rk & Hrk & Hck); [congruence|].
        destruct (fo_par _ _ _ _ (proj1 HTs) k b i Hb Hp) as (a' & Ha' & Hlt).
        assert (h_val b < n) as Hvb.
        { destruct (shape_at _ _ _ _ (eq_sym Hs) Ha') as (a2 & Ha2 & E). rewrite Ha in Ha2. injection Ha2 as <-.
          apply shape_inv in E as (_ & _ & _ & E & _). lia. }
        destruct (IH s k b rk HTs Hb Hrk Hck Hvb) as (s1 & o & -> & HT1 & Hs1 & Ho). eexists s1, _. split; [done|].
        split; [congruence|]. split; [done|]. destruct first; [|done]. intros x y ->. destruct (Ho x y eq_refl) as ((bx & Hbx) & (by' & Hby) & Hu).
        pose proof (eq_sym Hs) as Hs'.
        split; [destruct (shape_at _ _ _ _ Hs' Hbx) as (? & ? & _); eauto|]. split; [destruct (shape_at _ _ _ _ Hs' Hby) as (? & ? & _); eauto|].
        eapply rtc_r; [by eapply hup_shape|]. destruct (shape_at _ _ _ _ Hs' Hb) as (b2 & Hb2 & E). apply shape_inv in E as (_ & E & _).
        exists b2. split; [done|]. congruence. }
      assert (same_shape (ot_h s) (ot_h s1)) as Hss by congruence.
      destruct (shape_at _ _ _ _ Hss Hb) as (b1 & Hb1 & E). rewrite Hb1. destruct (fgt fzero (h_var b1)); [by eauto 10|].
      apply shape_inv in E as (_ & _ & <- & _).
      apply IHk; auto.
      + by eapply schain_shape.
      + cbn in Hm. lia.
      + intros j Hj. destruct (Hk j) as (c & Hcj & Hpj); [by right|]. destruct (shape_at _ _ _ _ Hss Hcj) as (c1 & Hc1 & E).
        apply shape_inv in E as (_ & E & _). exists c1. split; [done|congruence]. }
  assert (exists s' hh' fl, (if (p_min P <=? Z.of_nat (h_size a))%Z then loop (length (ot_h t)) (h_child a) true None t else Some (t, None, true)) = Some (s', hh', fl) /\
    same_shape (ot_h t) (ot_h s') /\ tree_ok fin nx RL rids s' /\
    (forall x y, hh' = Some (x, y) -> (exists b, ot_h t !! x = Some b) /\ (exists b, ot_h t !! y = Some b) /\ rtc (hup (ot_h t)) x i)) as (s1 & hh1 & fl & -> & Hs1 & HT1 & Hh1).
  { destruct (_ <=? _)%Z; [by apply (Hloop ks)|]. exists t, None, true. done. }
  destruct fl; [|by exists s1, None].
  destruct (shape_at _ _ _ _ Hs1 Ha) as (a1 & Ha1 & E).
  destruct (oupdate_this_ok fin final s1 i a1 r hh1) as (t' & x & y & -> & HT' & Hs' & Hx & Hy & Hu); auto.
  - by eapply hclosed_shape.
  - intros x y Hxy. destruct (Hh1 x y Hxy) as ((bx & Hbx) & (by' & Hby) & Hu).
    split; [destruct (shape_at _ _ _ _ Hs1 Hbx) as (? & ? & _); eauto|]. split; [destruct (shape_at _ _ _ _ Hs1 Hby) as (? & ? & _); eauto|]. by eapply hup_shape.
  - eexists t', _. split; [done|]. split; [done|]. split; [congruence|]. intros x' y' [= <- <-]. pose proof (eq_sym Hs1) as Hsy.
    destruct Hx as (bx & Hbx), Hy as (by' & Hby).
    split; [destruct (shape_at _ _ _ _ Hsy Hbx) as (? & ? & _); eauto|]. split; [destruct (shape_at _ _ _ _ Hsy Hby) as (? & ? & _); eauto|]. by eapply hup_shape.
Qed.
End forest.
