(* Extraction in CV-MSER+: what the records and the memory hold. *)
From stdpp Require Import sorting relations functions list_numbers list.
From Coq Require Import NArith ZArith SpecFloat.
From Verif Require Import FloodModel RectModel RecogModel LinkedModel CvModel CvRecog.
Local Open Scope nat_scope.

(* SPEC: the least rectangle that covers a list of points: left, right, top, bottom *)
Definition tight (L : list (Z * Z)) (l r t b : Z) : Prop :=
  (forall q, q ∈ L -> (l <= fst q <= r /\ t <= snd q <= b)%Z) /\
  (exists q, q ∈ L /\ fst q = l) /\ (exists q, q ∈ L /\ fst q = r) /\
  (exists q, q ∈ L /\ snd q = t) /\ (exists q, q ∈ L /\ snd q = b).
(* SPEC: a rectangle is the bounding box of a list of points *)
Definition bounding (L : list (Z * Z)) (r : rect) : Prop :=
  tight L (x_left r) (x_left r + x_w r - 1) (x_top r) (x_top r + x_h r - 1).

Definition grow_all (L : list (Z * Z)) (b : cvbox) : cvbox := foldl (fun b q => cv_grow b (fst q) (snd q)) b L.
Notation tightb L b := (tight L (bx_l b) (bx_r b) (bx_t b) (bx_b b)).

Lemma grow_tight L b x y : tightb L b -> tightb (L ++ [(x, y)]) (cv_grow b x y).
Proof.
  destruct b as [l r t d]. cbn [bx_l bx_r bx_t bx_b].
  intros (H1 & (a1 & A1 & <-) & (a2 & A2 & <-) & (a3 & A3 & <-) & (a4 & A4 & <-)).
  assert (forall q, q ∈ L -> q ∈ L ++ [(x, y)]) as Hl by (intros; apply elem_of_app; auto).
  assert ((x, y) ∈ L ++ [(x, y)]) as Hr by (apply elem_of_app; right; left).
  assert (exists u, u ∈ L ++ [(x, y)] /\ fst u = fst a1) as B1 by eauto.
  assert (exists u, u ∈ L ++ [(x, y)] /\ fst u = fst a2) as B2 by eauto.
  assert (exists u, u ∈ L ++ [(x, y)] /\ snd u = snd a3) as B3 by eauto.
  assert (exists u, u ∈ L ++ [(x, y)] /\ snd u = snd a4) as B4 by eauto.
  assert (exists u, u ∈ L ++ [(x, y)] /\ fst u = x) as B5 by eauto.
  assert (exists u, u ∈ L ++ [(x, y)] /\ snd u = y) as B6 by eauto.
  pose proof (proj1 (H1 a2 A2)). pose proof (proj2 (H1 a4 A4)). pose proof (proj1 (H1 a1 A1)). pose proof (proj2 (H1 a3 A3)).
  unfold cv_grow. cbn [bx_l bx_r bx_t bx_b].
  destruct (Z.ltb_spec (fst a2) x); [|destruct (Z.ltb_spec x (fst a1))];
  (destruct (Z.ltb_spec (snd a4) y); [|destruct (Z.ltb_spec y (snd a3))]); cbn [bx_l bx_r bx_t bx_b];
  (split; [|auto]); intros q [Hq|Hq%elem_of_list_singleton]%elem_of_app; try (subst q; cbn [fst snd]; lia);
  destruct (H1 q Hq); lia.
Qed.
Lemma grow_all_tight L1 L b : tightb L1 b -> tightb (L1 ++ L) (grow_all L b).
Proof.
  revert L1 b. induction L as [|[x y] L IH]; intros L1 b H; [by rewrite app_nil_r|].
  cbn [grow_all foldl fst snd]. change (_ :: L) with ([(x, y)] ++ L). rewrite app_assoc. apply IH. by apply grow_tight.
Qed.
(* the rectangle of a list of points *)
Definition box_of (L : list (Z * Z)) : rect :=
  match L with
  | [] => Rect 0 0 0 0
  | (x, y) :: _ => let b := grow_all L (CvBox x x y y) in
      Rect (bx_l b) (bx_t b) (bx_r b - bx_l b + 1) (bx_b b - bx_t b + 1)
  end.
Lemma box_bounding L : L <> [] -> bounding L (box_of L).
Proof.
  destruct L as [|[x y] L]; [done|]. intros _. unfold box_of, bounding. cbn [x_left x_top x_w x_h].
  set (b := grow_all ((x, y) :: L) (CvBox x x y y)).
  assert (tightb ((x, y) :: (x, y) :: L) b) as H.
  { apply (grow_all_tight [(x, y)] ((x, y) :: L)).
    assert (forall f : Z * Z -> Z, exists q, q ∈ [(x, y)] /\ f q = f (x, y)) as Hq by (intros f; exists (x, y); split; [left|done]).
    split; [intros q ->%elem_of_list_singleton; cbn; lia|]. cbn [bx_l bx_r bx_t bx_b].
    split; [apply (Hq fst)|]. split; [apply (Hq fst)|]. split; [apply (Hq snd)|apply (Hq snd)]. }
  replace (bx_l b + (bx_r b - bx_l b + 1) - 1)%Z with (bx_r b) by lia.
  replace (bx_t b + (bx_b b - bx_t b + 1) - 1)%Z with (bx_b b) by lia.
  assert (forall q, q ∈ (x, y) :: (x, y) :: L <-> q ∈ (x, y) :: L) as He by (intros q; rewrite !elem_of_cons; tauto).
  destruct H as (H1 & (q1 & ? & ?) & (q2 & ? & ?) & (q3 & ? & ?) & (q4 & ? & ?)).
  split; [intros q Hq; apply H1; by apply He|].
  split; [exists q1; by rewrite <-He|]. split; [exists q2; by rewrite <-He|]. split; [exists q3; by rewrite <-He|exists q4; by rewrite <-He].
Qed.

Lemma copy_ok pts n : forall o L A m b, lwalk pts o n = Some L ->
  cv_copy pts (A ++ replicate (n + m) None) o (length A) n b = Some (A ++ (Some <$> L) ++ replicate m None, grow_all L b).
Proof.
  induction n as [|n IH]; intros o L A m b.
  - intros [= <-]. cbn. done.
  - cbn [lwalk cv_copy]. destruct o as [i|]; [|done]. destruct (pts !! i) as [p|]; [|done].
    destruct (lwalk pts (p_next p) n) as [L'|] eqn:E; [|done]. intros [= <-].
    unfold store. rewrite app_length, replicate_length. destruct (Nat.ltb_spec (length A) (length A + (S n + m))); [|lia].
    rewrite <-(Nat.add_0_r (length A)) at 1. rewrite insert_app_r. cbn [Nat.add replicate].
    change (<[0:=Some (p_x p, p_y p)]> (None :: replicate (n + m) None)) with ([Some (p_x p, p_y p)] ++ replicate (n + m) None).
    rewrite app_assoc. replace (S (length A)) with (length (A ++ [Some (p_x p, p_y p)])) by (rewrite app_length; cbn; lia).
    rewrite (IH _ L' _ m _ E). rewrite <-app_assoc. done.
Qed.
Lemma walk_len pts n : forall o L, lwalk pts o n = Some L -> length L = n.
Proof.
  induction n as [|n IH]; intros o L; [by intros [= <-]|]. cbn. destruct o as [i|]; [|done]. destruct (pts !! i) as [p|]; [|done].
  destruct (lwalk pts (p_next p) n) as [L'|] eqn:E; [|done]. intros [= <-]. cbn. f_equal. eauto.
Qed.

(* the level in a record *)
Definition out_gray (gm : N) (g : nat) : nat := if (gm =? 0)%N then g else 255 - g.
(* the records of regions with the levels gs and the pixel lists Ls *)
Fixpoint recs_of (gm : N) (off : nat) (gs : list nat) (Ls : list (list (Z * Z))) : list cvrec :=
  match gs, Ls with
  | g :: gs', L :: Ls' => CvRec (out_gray gm g) (length L) off (box_of L) :: recs_of gm (off + length L) gs' Ls'
  | _, _ => []
  end.

(* region x has level g and pixel list L *)
Definition region_is (regs : list lreg) (pts : list lpt) (x g : nat) (L : list (Z * Z)) : Prop :=
  exists a, regs !! x = Some a /\ n_gray a = g /\ n_size a = Some (length L) /\ lwalk pts (n_head a) (length L) = Some L /\ L <> [].

Lemma record_ok gm regs pts A m ms x g L : region_is regs pts x g L ->
  cv_record gm regs pts (A ++ replicate (length L + m) None, ms, length A) x =
  Some (A ++ (Some <$> L) ++ replicate m None, ms ++ [CvRec (out_gray gm g) (length L) (length A) (box_of L)], length A + length L).
Proof.
  intros (a & Ha & <- & Hs & Hw & Hne). unfold cv_record. rewrite Ha, Hs.
  destruct L as [|[x0 y0] L]; [done|]. cbn [length] in Hw.
  pose proof Hw as Hw'. cbn [lwalk] in Hw'. destruct (n_head a) as [i|] eqn:Eh; [|done]. destruct (pts !! i) as [p|] eqn:Ep; [|done].
  destruct (lwalk pts (p_next p) (length L)) as [L'|] eqn:El; [|done]. injection Hw' as E1 E2 E3. subst x0 y0 L'.
  rewrite (copy_ok pts (length ((p_x p, p_y p) :: L)) (Some i) ((p_x p, p_y p) :: L) A m _ Hw). done.
Qed.
Lemma records_ok gm regs pts l gs Ls : length gs = length l -> length Ls = length l ->
  (forall j x g L, l !! j = Some x -> gs !! j = Some g -> Ls !! j = Some L -> region_is regs pts x g L) ->
  forall A ms m, cv_each (cv_record gm regs pts) l (A ++ replicate (length (concat Ls) + m) None, ms, length A) =
  Some (A ++ (Some <$> concat Ls) ++ replicate m None, ms ++ recs_of gm (length A) gs Ls, length A + length (concat Ls)).
Proof.
  revert gs Ls. induction l as [|x l IH]; intros gs Ls H1 H2 Hr A ms m.
  - destruct Ls; [|done]. destruct gs; [|done]. cbn. rewrite Nat.add_0_r. by rewrite app_nil_r.
  - destruct gs as [|g gs]; [done|]. destruct Ls as [|L Ls]; [done|]. injection H1 as H1. injection H2 as H2. cbn [cv_each concat].
    rewrite app_length. rewrite <-Nat.add_assoc.
    rewrite (record_ok gm regs pts A (length (concat Ls) + m) ms x g L); [|by apply (Hr 0)].
    assert (length A + length L = length (A ++ (Some <$> L))) as E by (rewrite app_length, fmap_length; done).
    rewrite E. rewrite app_assoc. rewrite (IH gs Ls H1 H2). 2: { intros j y h K Hy Hh HK. by apply (Hr (S j)). }
    rewrite <-E. rewrite fmap_app, <-!app_assoc. cbn [recs_of app]. do 2 f_equal. lia.
Qed.

Lemma recs_length gm off gs Ls : length gs = length Ls -> length (recs_of gm off gs Ls) = length gs.
Proof. revert off Ls. induction gs as [|g gs IH]; intros off [|L Ls] H; cbn in *; try done. f_equal. apply IH. lia. Qed.
Lemma recs_lookup gm gs Ls j g L : gs !! j = Some g -> Ls !! j = Some L -> forall off,
  recs_of gm off gs Ls !! j = Some (CvRec (out_gray gm g) (length L) (off + length (concat (take j Ls))) (box_of L)).
Proof.
  revert gs Ls. induction j as [|j IH]; intros [|g' gs] [|L' Ls] Hg HL off; try done; cbn in Hg, HL.
  - injection Hg as ->. injection HL as ->. cbn. by rewrite Nat.add_0_r.
  - cbn [recs_of lookup list_lookup]. change (list_lookup j ?x) with (x !! j). rewrite (IH gs Ls Hg HL). cbn [take concat]. rewrite app_length. do 2 f_equal. lia.
Qed.
Lemma concat_at {A} (Ls : list (list A)) j L : Ls !! j = Some L ->
  take (length L) (drop (length (concat (take j Ls))) (concat Ls)) = L.
Proof.
  intros Hj. rewrite <-(take_drop_middle Ls j L Hj) at 2. rewrite concat_app. rewrite drop_app_alt by done. cbn [concat].
  by rewrite take_app_alt.
Qed.
Lemma mapM_some {A} (l : list A) : mapM (fun o => o) (Some <$> l) = Some l.
Proof. induction l as [|x l IH]; [done|]. cbn. change (list_fmap A (option A) Some l) with (Some <$> l). by rewrite IH. Qed.

Lemma extract_ok gm regs pts l gs Ls total : length gs = length l -> length Ls = length l ->
  (forall j x g L, l !! j = Some x -> gs !! j = Some g -> Ls !! j = Some L -> region_is regs pts x g L) ->
  total = N.of_nat (length (concat Ls)) -> (total < 2 ^ 31)%N ->
  cv_extract gm regs pts l total = Some (CvRes (Some <$> concat Ls) (recs_of gm 0 gs Ls)).
Proof.
  intros H1 H2 Hr -> Ht. unfold cv_extract. apply N.ltb_lt in Ht. rewrite Ht, Nat2N.id.
  pose proof (records_ok gm regs pts l gs Ls H1 H2 Hr [] [] 0) as E. cbn [app length Nat.add replicate] in E.
  rewrite Nat.add_0_r, app_nil_r in E. rewrite E. by rewrite Nat.eqb_refl.
Qed.
Lemma read_ok gm gs Ls j g L : gs !! j = Some g -> Ls !! j = Some L -> length gs = length Ls ->
  exists rc, recs_of gm 0 gs Ls !! j = Some rc /\ cr_gray rc = out_gray gm g /\ cr_size rc = length L /\ cr_rect rc = box_of L /\
    cr_pts rc = length (concat (take j Ls)) /\
    cv_read (CvRes (Some <$> concat Ls) (recs_of gm 0 gs Ls)) rc = Some L.
Proof.
  intros Hg HL _. eexists. split; [by apply recs_lookup|]. cbn [cr_gray cr_size cr_rect cr_pts Nat.add]. do 4 (split; [done|]).
  unfold cv_read. cbn [cr_size cr_pts cv_mem Nat.add]. rewrite <-fmap_drop, <-fmap_take, (concat_at Ls j L HL), fmap_length, Nat.eqb_refl.
  apply mapM_some.
Qed.
