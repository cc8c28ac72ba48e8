(* Concrete runs of the OpenCV3-style extraction, and images it cannot process. *)
From stdpp Require Import sorting relations functions list_numbers list.
From Coq Require Import NArith ZArith SpecFloat.
From Verif Require Import Spec TreeSpec JoinCorrect FloodModel FloodInit FloodCorrect FloatModel RectModel RecogModel CvExtract ExtractTop
  OcvModel OcvTree OcvRefine OcvRun OcvInit OcvCorrect.
Local Open Scope nat_scope.

(* five rows and columns *)
Definition ox_img : list N := [9;9;9;9;9; 9;1;9;2;9; 9;3;9;2;9; 9;3;5;4;9; 9;9;9;9;9]%N.
(* the same with a dark border pixel *)
Definition ox_edge : list N := [9;9;9;9;9; 9;1;9;2;9; 0;3;9;2;9; 0;3;5;4;9; 0;0;9;9;9]%N.
Definition oxP : rparam := RParam 1 flt_max (f32_of_int (-1)) fzero 1 100.
Definition oshow (r : option (list omser * list omser)) : option (list (list (Z * Z) * rect) * list (list (Z * Z) * rect)) :=
  match r with Some (a, b) => Some (map (fun m => (om_pts m, om_rect m)) a, map (fun m => (om_pts m, om_rect m)) b) | None => None end.
(* the top component at the end of a pass *)
Definition otop (r : option (otree * ost * obuf)) : option (list (Z * Z)) :=
  match r with
  | Some (_, s, _) => match head (t_comps s) with Some c => opixels (t_pix s) 5 (o_head c) (o_size c) | None => None end
  | None => None
  end.

Lemma ox_fits : oimage ox_img 5 5 /\ oimage ox_edge 5 5.
Proof. split; (split; [lia|lia|done|by repeat constructor|done]). Qed.
Lemma ox_bufs : obuf_ok 5 5 (oalloc 5 5 7 (Some 3) 77) /\ obuf_ok 5 5 (oalloc 5 5 1 None 0).
Proof. split; (constructor; vm_compute; reflexivity). Qed.

Lemma ox_call : oshow (ocv_call 1000 ox_img 5 5 oxP true true (oalloc 5 5 7 (Some 3) 77)) = Some
  ([([(3, 2); (3, 1)], Rect 3 1 1 2); ([(1, 1)], Rect 1 1 1 1); ([(3, 2); (3, 1); (3, 3)], Rect 3 1 1 3); ([(1, 1); (1, 2); (1, 3)], Rect 1 1 1 3);
    ([(1, 1); (1, 2); (1, 3); (3, 2); (3, 1); (3, 3); (2, 3)], Rect 1 1 3 3);
    ([(1, 1); (1, 2); (1, 3); (3, 2); (3, 1); (3, 3); (2, 3); (2, 2); (2, 1)], Rect 1 1 3 3)],
   [([(2, 1); (2, 2)], Rect 2 1 1 2); ([(2, 1); (2, 2); (2, 3)], Rect 2 1 1 3); ([(2, 1); (2, 2); (2, 3); (3, 3)], Rect 2 1 2 3);
    ([(2, 1); (2, 2); (2, 3); (3, 3); (1, 3); (1, 2)], Rect 1 1 3 3);
    ([(2, 1); (2, 2); (2, 3); (3, 3); (1, 3); (1, 2); (3, 2); (3, 1)], Rect 1 1 3 3);
    ([(2, 1); (2, 2); (2, 3); (3, 3); (1, 3); (1, 2); (3, 2); (3, 1); (1, 1)], Rect 1 1 3 3)])%Z.
Proof. vm_compute. reflexivity. Qed.

(* the dark pixels on the border change nothing *)
Lemma ox_edge_call : ocv_call 1000 ox_edge 5 5 oxP true false (oalloc 5 5 1 None 0) = ocv_call 1000 ox_img 5 5 oxP true false (oalloc 5 5 7 (Some 3) 77).
Proof. vm_compute. reflexivity. Qed.
Lemma ox_edge_top : otop (ocv_pass ox_edge 5 5 0 oxP 1000 true (oalloc 5 5 1 None 0)) = Some [(1, 1); (1, 2); (1, 3); (3, 2); (3, 1); (3, 3); (2, 3); (2, 2); (2, 1)]%Z.
Proof. vm_compute. reflexivity. Qed.

(* ---------- bright regions only ---------- *)
Definition bad_bright (o : option (list omser * list omser)) : Prop :=
  match o with
  | Some (_, ms) => match ms !! 3 with Some m => om_pts m = [(2, 1); (2, 2); (2, 3); (0, 0); (0, 0); (0, 0)]%Z | None => False end
  | None => False
  end.
Lemma ox_bright : bad_bright (ocv_call 1000 ox_img 5 5 oxP false true (oalloc 5 5 0 None 0)).
Proof. vm_compute. reflexivity. Qed.

Lemma dup_not_good src gm rows cols P ms m : ms !! 3 = Some m -> om_pts m = [(2, 1); (2, 2); (2, 3); (0, 0); (0, 0); (0, 0)]%Z ->
  ~ o_good src gm rows cols P ms.
Proof.
  intros Hm Hp [HG _]. destruct (HG 3 m Hm) as (g & R & _ & ([Hnd _] & _) & _). rewrite Hp in Hnd.
  pose proof (proj1 (NoDup_alt _) Hnd 3 4 (0, 0)%Z eq_refl eq_refl). lia.
Qed.
Lemma bad_not_good src gm rows cols P o d R : bad_bright o -> o = Some (d, R) -> ~ o_good src gm rows cols P R.
Proof. intros Hb ->. cbn in Hb. destruct (R !! 3) as [m|] eqn:Hm; [|done]. exact (dup_not_good _ _ _ _ _ _ _ Hm Hb). Qed.

Lemma bright_only_refuted : ~ forall src rows cols P n b, oimage src rows cols -> obuf_ok rows cols b -> 6 * ((rows - 2) * (cols - 2)) < n ->
  exists R1, ocv_call n src rows cols P false true b = Some ([], R1) /\ o_good src 255 rows cols P R1.
Proof.
  intros H.
  assert (exists R1, ocv_call 1000 ox_img 5 5 oxP false true (oalloc 5 5 0 None 0) = Some ([], R1) /\ o_good ox_img 255 5 5 oxP R1) as (R1 & Hc & HG).
  { apply H; [apply ox_fits| |clear; lia]. constructor; vm_compute; reflexivity. }
  exact (bad_not_good _ _ _ _ _ _ _ _ ox_bright Hc HG).
Qed.

(* ---------- one or two rows ---------- *)
Lemma for_from_some_len {A} (I : nat -> A -> Prop) a n body (s s' : A) : I a s -> (forall i s s', I i s -> body i s = Some s' -> I (S i) s') ->
  for_from a n body s = Some s' -> I (a + n) s'.
Proof.
  revert a s. induction n as [|n IH]; intros a s Hs Hb; cbn [for_from]; [intros [= <-]; by rewrite Nat.add_0_r|].
  destruct (body a s) as [s1|] eqn:E; [|done]. intros H. rewrite Nat.add_succ_r. eapply (IH (S a) s1); eauto.
Qed.
Lemma store_some {A} (l l' : list A) i v : store l i v = Some l' -> l' = <[i := v]> l.
Proof. unfold store. destruct (_ <? _); congruence. Qed.

Lemma borders_some rows cols pix pix' n : for_from 0 n (oborder_rows rows cols) pix = Some pix' -> length pix' = length pix /\
  forall r c, c < n -> r = 0 \/ r = rows - 1 -> pix' !! (r * cols + c) = Some border_word.
Proof.
  intros H. refine (for_from_some_len (fun i s => length s = length pix /\ forall r c, c < i -> r = 0 \/ r = rows - 1 -> s !! (r * cols + c) = Some border_word) 0 n _ pix pix' _ _ H).
  - split; [done|]. lia.
  - clear. intros i s s' [Hl Hw]. unfold oborder_rows. unfold store at 1. destruct (Nat.ltb_spec (i + (rows - 1) * cols) (length s)) as [H1|]; [|done].
    unfold store. rewrite insert_length. destruct (Nat.ltb_spec i (length s)) as [H2|]; [|done]. intros [= <-]. split; [by rewrite !insert_length|].
    intros r c Hc Hr. destruct (decide (r * cols + c = i)) as [->|Hne]; [rewrite list_lookup_insert; [done|by rewrite insert_length]|].
    rewrite list_lookup_insert_ne by done. destruct (decide (r * cols + c = i + (rows - 1) * cols)) as [->|Hne2]; [by rewrite list_lookup_insert|].
    rewrite list_lookup_insert_ne by done. apply Hw; [|done]. destruct (decide (c = i)) as [->|]; [|lia]. destruct Hr as [-> | ->]; lia.
Qed.

(* img_opencv3_mser.cpp:270: the loop starts in the second row; 283: it looks one row below *)
Theorem two_rows_fail src rows cols P n b : rows <= 2 -> 1 <= cols -> 3 <= n -> length (ob_pix b) = rows * cols ->
  forall gm, ocv_pass src rows cols gm P n true b = None.
Proof.
  intros Hr Hc Hn Hl gm. unfold ocv_pass, opreprocess.
  destruct (oprepare_first src rows cols (ob_pix b)) as [[pix lvl]|] eqn:E; [|done]. destruct (oheaps lvl (ob_heap b) (ob_hs b)) as [[heap hs]|]; [|done].
  unfold oprepare_first in E. destruct (for_from 0 cols (oborder_rows rows cols) (ob_pix b)) as [pix1|] eqn:E1; [|done].
  replace (rows - 2) with 0 in E by lia. cbn [for_from] in E. injection E as -> _. apply borders_some in E1 as [Hl1 Hw].
  unfold oinit. cbn [ob_pix ob_heap ob_hs]. destruct (pix !! (cols + 1)) as [v|] eqn:Hv; [|done]. destruct (get_gray src gm (cols + 1)) as [g|]; [|done].
  apply lookup_lt_Some in Hv. assert (rows = 2) as -> by (destruct rows as [|[|[|]]]; lia).
  destruct n as [|n]; [lia|]. destruct n as [|n]; [lia|]. cbn [orun]. unfold ostep at 1. cbn [t_d Nat.leb]. unfold otour. cbn [t_pix t_cur t_d t_gray t_heap t_hs t_comps t_tree onbr].
  destruct (decide (cols = 2)) as [->|].
  - rewrite (lookup_ge_None_2 _ (2 + 1 + 1)); [done|]. rewrite insert_length. lia.
  - rewrite list_lookup_insert_ne by lia. replace (cols + 1 + 1) with ((2 - 1) * cols + 2) by lia. rewrite Hw by lia. change (visited border_word) with true. cbn match.
    unfold ostep. cbn [t_d Nat.leb]. unfold otour. cbn [t_pix t_cur t_d t_gray t_heap t_hs t_comps t_tree onbr].
    rewrite lookup_ge_None_2; [done|]. rewrite insert_length. lia.
Qed.

Theorem two_rows_call src rows cols P n b bright : rows <= 2 -> 1 <= cols -> 3 <= n -> length (ob_pix b) = rows * cols ->
  ocv_call n src rows cols P true bright b = None.
Proof. intros H1 H2 H3 H4. unfold ocv_call. by rewrite (two_rows_fail src rows cols P n b H1 H2 H3 H4). Qed.

(* three rows of two columns: the largest component is one pixel of the border *)
Lemma two_columns : (r ← ocv_pass [5;6;7;8;9;10]%N 3 2 0 oxP 100 true (oalloc 3 2 0 None 0); let '(_, s, _) := r in
  c ← head (t_comps s); opixels (t_pix s) 2 (o_head c) (o_size c)) = Some [(1, 1)]%Z.
Proof. vm_compute. reflexivity. Qed.

(* ---------- the border ---------- *)
(* SPEC: the pixel is in the first or last row or column *)
Definition on_border (rows cols p : nat) : Prop := p / cols = 0 \/ p / cols = rows - 1 \/ p mod cols = 0 \/ p mod cols = cols - 1.

Lemma inner_not_border rows cols p : 3 <= rows -> 3 <= cols -> in_rect cols 1 1 (cols - 2) (rows - 2) p -> ~ on_border rows cols p.
Proof. intros Hr Hc Hp. unfold on_border, in_rect in *. intuition lia. Qed.

Theorem border_in_no_record src gm rows cols P ms p : oimage src rows cols -> o_good src gm rows cols P ms -> on_border rows cols p ->
  forall i m, ms !! i = Some m -> pixel cols p ∉ om_pts m.
Proof.
  intros [Hr Hc _ _ _] [HG _] Hp i m Hm Hin. destruct (HG i m Hm) as (g & R & (p0 & _ & _ & HR) & ([_ Hl] & _) & _).
  apply Hl in Hin as (q & Hq & Heq). apply pixel_inj in Heq as Heq; [|lia]. subst q. pose proof (proj1 (HR _) Hq) as (_ & Hin & _).
  exact (inner_not_border rows cols p Hr Hc Hin Hp).
Qed.

(* the components the dark and the bright pass of a call end with *)
Theorem top_is_interior src rows cols P n b : oimage src rows cols -> obuf_ok rows cols b -> 6 * ((rows - 2) * (cols - 2)) < n ->
  exists t s b' t1 s1 b1, ocv_pass src rows cols 0 P n true b = Some (t, s, b') /\ ocv_pass src rows cols 255 P n false b' = Some (t1, s1, b1) /\
  forall s2, s2 = s \/ s2 = s1 -> exists c l, head (t_comps s2) = Some c /\ opixels (t_pix s2) cols (o_head c) (o_size c) = Some l /\
    lists_set cols (fun p => p < rows * cols /\ ~ on_border rows cols p) l.
Proof.
  intros HI Hb Hn. destruct (pass_ok src rows cols HI P n true b Hn Hb) as (s & t & lab & regs & b' & E & HO & Hb').
  destruct (pass_ok src rows cols HI P n false b' Hn (Hb' eq_refl)) as (s1 & t1 & lab1 & regs1 & b1 & E1 & HO1 & _).
  exists t, s, b', t1, s1, b1. split; [exact E|]. split; [exact E1|]. intros s2 Hs2.
  assert (exists c l, head (t_comps s2) = Some c /\ opixels (t_pix s2) cols (o_head c) (o_size c) = Some l /\
    lists_set cols (in_rect cols 1 1 (cols - 2) (rows - 2)) l) as (c & l & Hc & Hl & Hs).
  { destruct Hs2 as [-> | ->].
    - destruct (pass_top src rows cols HI _ _ _ _ _ _ HO) as (c & l & ? & ? & ? & _); eauto.
    - destruct (pass_top src rows cols HI _ _ _ _ _ _ HO1) as (c & l & ? & ? & ? & _); eauto. }
  exists c, l. split; [done|]. split; [done|]. eapply lists_iff; [|exact Hs]. intros p. cbn beta. destruct HI as [Hr Hcc _ _ _]. clear -Hr Hcc. split.
  - intros Hp. split; [|by apply inner_not_border]. destruct Hp as [H1 H2]. pose proof (Nat.div_mod p cols ltac:(lia)).
    pose proof (Nat.mod_upper_bound p cols ltac:(lia)). nia.
  - intros [Hp Hb]. unfold on_border in Hb. unfold in_rect. assert (p mod cols < cols) by (apply Nat.mod_upper_bound; lia).
    assert (p / cols < rows) by (apply Nat.div_lt_upper_bound; [lia|by rewrite Nat.mul_comm]).
    revert Hb H H0. generalize (p / cols) (p mod cols). clear -Hr Hcc. intros a b Hb H H0. split; split; destruct (decide (a = 0)), (decide (b = 0)); lia.
Qed.

Theorem covers_refuted : ~ forall src rows cols P n b t s b', oimage src rows cols -> obuf_ok rows cols b ->
  ocv_pass src rows cols 0 P n true b = Some (t, s, b') ->
  exists c l, head (t_comps s) = Some c /\ opixels (t_pix s) cols (o_head c) (o_size c) = Some l /\ lists_set cols (fun p => p < rows * cols) l.
Proof.
  intros H. destruct (top_is_interior ox_edge 5 5 oxP 100 (oalloc 5 5 1 None 0) (proj2 ox_fits) (proj2 ox_bufs)) as (t & s & b' & t1 & s1 & b1 & E & _ & Hs); [lia|].
  destruct (H _ _ _ _ _ _ _ _ _ (proj2 ox_fits) (proj2 ox_bufs) E) as (c & l & Hc & Hl & HL).
  destruct (Hs s (or_introl eq_refl)) as (c' & l' & Hc' & Hl' & HL'). rewrite Hc in Hc'. injection Hc' as <-. rewrite Hl in Hl'. injection Hl' as <-.
  assert (pixel 5 0 ∈ l) as Hin by (apply HL; exists 0; split; [lia|done]). apply HL' in Hin as (q & [_ Hq] & Heq). apply pixel_inj in Heq as <-; [|lia].
  apply Hq. left. done.
Qed.
