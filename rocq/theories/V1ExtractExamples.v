(* Concrete inputs that meet the hypotheses of the theorems about extraction in Fast MSER
   V1, and a witness for the refutation. *)
From stdpp Require Import sorting relations functions list.
From Coq Require Import NArith ZArith SpecFloat.
From Verif Require Import Spec TreeSpec Grid FloodModel FloodExamples ConnectModel ConnectProof PartModel PartProof
  WholeModel WholeCorrect JoinCorrect JoinExamples FloatModel FloatFacts RecogModel RecogSpec RecogSched RecogFinal RecogResults DetectModel Detect RecogExamples RectModel ExtractModel CopyModel RunModel RunCorrect RunResults RunExamples
  V1JoinModel V1Heap V1Model V1BuildModel V1AllocModel V1Build V1Alloc V1Comp V1Examples V1RecogModel V1Recog V1Detect V1ExtractModel V1Copy V1Tops V1Extract.
Local Open Scope nat_scope. 
(* four dark regions, one of them in a larger one *)
Definition exk_img : list N := [0; 0; 9; 1; 1; 9;  0; 5; 9; 1; 9; 9;  9; 9; 9; 9; 9; 2;  3; 3; 3; 9; 2; 2]%N.
Definition exkP : rparam := RParam 1 (f32_of_int 3) (f32_of_int (-1)) f32_tenth 3 11.
(* the workers of the copying in turn *)
Definition by_turns (threads cols rows : nat) (F : list (list wreg)) (l : list rref) : list nat :=
  concat (replicate (2 * (rows * cols)) (seq 0 threads)).
Definition ex_channel (threads hpn vpn : nat) (gm : N) (P : rparam) (img : list N) (cols rows : nat) :=
  match valloc threads cols rows (ex_mem threads hpn vpn cols rows) (ex_pinfo threads) with
  | Some bs => v1_channel 300 600 threads gm true img cols rows P bs in_turn (by_turns threads cols rows) (fun _ => fzero)
  | None => None
  end.
(* the number of points and the records with their pixels *)
Definition k_brief (o : option (list (list wreg) * list vbuf * list rref * kres)) :=
  option_map (fun t => let '(_, _, l, R) := t in (length (k_mem R), map (fun r => (r, k_read (k_mem R) r)) (k_recs R))) o.
Lemma by_turns_ok threads cols rows : copies threads cols rows (by_turns threads cols rows).
Proof.
  intros F l. unfold copy_fair, by_turns. generalize (2 * (rows * cols)). intros k. split.
  - apply Forall_forall. intros j Hj. apply elem_of_list_In, List.in_concat in Hj as (x & Hx & Hj). apply elem_of_list_In in Hx, Hj.
    apply elem_of_replicate in Hx as [-> _]. apply elem_of_seq in Hj. lia.
  - intros j Hj. induction k as [|k IH]; [lia|]. cbn [replicate concat]. rewrite moves_app.
    assert (1 <= moves j (seq 0 threads)); [|lia].
    assert (j ∈ seq 0 threads) as H by (apply elem_of_seq; lia). revert H. generalize (seq 0 threads). intros q.
    induction q as [|u q IHq]; [by intros ?%elem_of_nil|]. cbn [moves]. destruct (Nat.eqb_spec j u) as [->|Hne]; [lia|].
    intros [->|H]%elem_of_cons; [done|]. specialize (IHq H). lia.
Qed.
Lemma exkP_delta : delta_ok exkP.
Proof. by vm_compute. Qed.
Lemma exkP_sane : sane exkP.
Proof. by left. Qed.
Lemma exkP_below : below1 (p_dup exkP).
Proof. by vm_compute. Qed.
Lemma exk_call threads hpn vpn : threads ∈ [1; 2; 4] -> v1_grid threads = Some (hpn, vpn) ->
  v1_call threads hpn vpn exk_img 6 4 300 600 (ex_mem threads hpn vpn 6 4) (ex_pinfo threads) exkP in_turn.
Proof.
  intros Ht Hg. constructor; [|done|apply exkP_delta|apply exkP_sane|apply in_turn_ok].
  assert ((threads = 1 /\ hpn = 1 /\ vpn = 1) \/ (threads = 2 /\ hpn = 2 /\ vpn = 1) \/ (threads = 4 /\ hpn = 2 /\ vpn = 2)) as Hc.
  { rewrite !elem_of_cons in Ht. destruct Ht as [->|[->|[->|Ht]]]; [| | |by apply elem_of_nil in Ht]; cbn in Hg; injection Hg as <- <-; auto. }
  destruct Hc as [(-> & -> & ->)|[(-> & -> & ->)|(-> & -> & ->)]];
    (constructor; [done| |done|done|apply ex_mem_ok|apply ex_pinfo_ok|cbn; lia|cbn; lia|cbn; lia]);
    apply (v1_fits_intro _ _ _ _ _ 200); try (cbn; lia); done.
Qed.
Lemma exk_call1 : v1_call 1 1 1 exk_img 6 4 300 600 (ex_mem 1 1 1 6 4) (ex_pinfo 1) exkP in_turn.
Proof. apply exk_call; [left|done]. Qed.
Lemma exk_call2 : v1_call 2 2 1 exk_img 6 4 300 600 (ex_mem 2 2 1 6 4) (ex_pinfo 2) exkP in_turn.
Proof. apply exk_call; [right; left|done]. Qed.
Lemma exk_call4 : v1_call 4 2 2 exk_img 6 4 300 600 (ex_mem 4 2 2 6 4) (ex_pinfo 4) exkP in_turn.
Proof. apply exk_call; [right; right; left|done]. Qed.
Lemma exk_sizes : sizes_ok 1 exkP /\ sizes_ok 2 exkP /\ sizes_ok 4 exkP.
Proof. by vm_compute. Qed.
Lemma exk_run : k_brief (ex_channel 4 2 2 0 exkP exk_img 6 4) = Some (13,
  [(KRec 3 (Rect 0 0 2 2) 0 (Some 10), Some [(1, 0); (0, 1); (0, 0)]);
   (KRec 3 (Rect 3 0 2 2) 1 (Some 0), Some [(4, 0); (3, 1); (3, 0)]);
   (KRec 3 (Rect 4 2 2 2) 2 (Some 3), Some [(5, 2); (5, 3); (4, 3)]);
   (KRec 3 (Rect 0 3 3 1) 3 (Some 6), Some [(2, 3); (1, 3); (0, 3)]);
   (KRec 4 (Rect 0 0 2 2) 5 (Some 9), Some [(1, 1); (1, 0); (0, 1); (0, 0)])]).
Proof. vm_compute. reflexivity. Qed.
Definition ex_channel_1 (gm : N) (P : rparam) (img : list N) (cols rows : nat) :=
  match valloc 1 cols rows (ex_mem 1 1 1 cols rows) (ex_pinfo 1) with
  | Some bs => v1_channel_1 300 600 gm true img cols rows P bs in_turn (fun _ => fzero)
  | None => None
  end.
Definition o_brief (o : option (list (list wreg) * list vbuf * list rref * (list (option (nat * nat)) * list orec))) :=
  option_map (fun t => snd t) o.
Lemma exk_run1 : o_brief (ex_channel_1 0 exkP exk_img 6 4) = Some (
  [Some (3, 1); Some (3, 0); Some (4, 0); Some (5, 2); Some (5, 3); Some (4, 3); Some (2, 3); Some (0, 3); Some (1, 3);
   Some (1, 1); Some (1, 0); Some (0, 1); Some (0, 0)],
  [ORec 3 0 (Some 10) (Some 12); ORec 3 1 (Some 0) (Some 2); ORec 3 2 (Some 3) (Some 5); ORec 3 3 (Some 6) (Some 8); ORec 4 5 (Some 9) (Some 12)]).
Proof. vm_compute. reflexivity. Qed.

(* three regions of three pixels, then two of one pixel *)
Definition lost_img : list N := 
  [0; 0; 9; 1; 1; 9;  0; 9; 9; 1; 9; 9;  9; 9; 5; 9; 9; 2;  6; 9; 9; 9; 2; 2]%N.
Definition lostP : rparam := RParam 1 (f32_of_int 3) (f32_of_int (-1)) f32_tenth 1 11.
Lemma lost_call : v1_call 4 2 2 lost_img 6 4 300 600 (ex_mem 4 2 2 6 4) (ex_pinfo 4) lostP in_turn.
Proof.
  constructor; [|done|by vm_compute|by left|apply in_turn_ok].
  constructor; [done| |done|done|apply ex_mem_ok|apply ex_pinfo_ok|cbn; lia|cbn; lia|cbn; lia].
  apply (v1_fits_intro _ _ _ _ _ 200); try (cbn; lia); done.
Qed.
Lemma lost_below : below1 (p_dup lostP).
Proof. by vm_compute. Qed.
Lemma lost_run : k_brief (ex_channel 4 2 2 0 lostP lost_img 6 4) = Some (11,
  [(KRec 3 (Rect 0 0 2 2) 0 (Some 0), Some [(1, 0); (0, 1); (0, 0)]);
   (KRec 3 (Rect 3 0 2 2) 1 (Some 3), Some [(4, 0); (3, 1); (3, 0)]);
   (KRec 3 (Rect 4 2 2 2) 2 (Some 6), Some [(5, 2); (5, 3); (4, 3)]);
   (KRec 1 (Rect 2 2 1 1) 5 (Some 9), Some [(2, 2)]);
   (KRec 1 (Rect 0 3 1 1) 6 None, None)]).
Proof. vm_compute. reflexivity. Qed.
Lemma brief_lost o k u1 u2 u3 u4 r : k_brief o = Some (k, [u1; u2; u3; u4; (r, None)]) ->
  exists F os l R, o = Some (F, os, l, R) /\ k_recs R !! 4 = Some r /\ k_read (k_mem R) r = None.
Proof.
  intros H. destruct o as [[[[F os] l] R]|] eqn:E; [|done].
  cbn [k_brief option_map] in H. injection H as _ H. destruct (k_recs R) as [|r1 [|r2 [|r3 [|r4 [|r5 [|? ?]]]]]] eqn:ER; try done. cbn [map] in H.
  injection H as _ _ _ _ -> H. exists F, os, l, R. rewrite ER. auto.
Qed.
Lemma ex_channel_inv threads hpn vpn gm P img cols rows X : ex_channel threads hpn vpn gm P img cols rows = Some X ->
  exists bs, valloc threads cols rows (ex_mem threads hpn vpn cols rows) (ex_pinfo threads) = Some bs /\
    v1_channel 300 600 threads gm true img cols rows P bs in_turn (by_turns threads cols rows) (fun _ => fzero) = Some X.
Proof. unfold ex_channel. destruct (valloc _ _ _ _ _) as [bs|]; [|done]. intros E. exists bs. exact (conj eq_refl E). Qed.
Lemma lost_bad : exists bs F os l R r,
  valloc 4 6 4 (ex_mem 4 2 2 6 4) (ex_pinfo 4) = Some bs /\
  v1_channel 300 600 4 0 true lost_img 6 4 lostP bs in_turn (by_turns 4 6 4) (fun _ => fzero) = Some (F, os, l, R) /\
  k_recs R !! 4 = Some r /\ k_read (k_mem R) r = None.
Proof.
  destruct (brief_lost _ _ _ _ _ _ _ lost_run) as (F & os & l & R & H & H3 & H4).
  destruct (ex_channel_inv _ _ _ _ _ _ _ _ _ H) as (bs & H1 & H2).
  exact (ex_intro _ bs (ex_intro _ F (ex_intro _ os (ex_intro _ l (ex_intro _ R (ex_intro _ _ (conj H1 (conj H2 (conj H3 H4))))))))).
Qed.
Lemma exk_fits : image_fits 2 2 exk_img 6 4.
Proof. apply (fits_intro _ _ _ _ _ 200); try (vm_compute; lia); done. Qed.
Lemma exk_v2 : exists R2, channel_result exk_img 0 6 4 700 exkP (plain (rects 2 2 6 4)) (CBuf 0 0) R2.
Proof.
  assert (modest_image 6 4) as Hm by (unfold modest_image; vm_compute; reflexivity).
  assert (short_sides 6 4) as Hs by (unfold short_sides; split; vm_compute; discriminate).
  assert (6 * (4 * 6) < 300 /\ 4 * 6 + 514 < 700) as [Hn Hf] by lia.
  destruct (run_ok exk_img 6 4 exk_fits Hm Hs exkP exkP_delta 300 700 Hn Hf 0 false (ex_bufs 2 2 6 4) (CBuf 0 0) _ _
    (ex_allocated 2 2 6 4) (plain_fair 6 4) (plain_fair 6 4)) as (R0 & _ & _ & H & _). exact (ex_intro _ R0 H).
Qed.
(* 32 threads and the default least size 20: the last of 33 top regions is not dealt *)
Definition lost_sizes : list nat := 21 :: replicate 32 20.
Lemma lost_plan : Forall (fun z => 20 <= z) lost_sizes /\ length lost_sizes = 33 /\
  forall i, i ∈ fst (v1_plan 32 (sum_list lost_sizes / 32) lost_sizes 0 0 (sum_list lost_sizes / 32) 0 (replicate 32 0) (replicate 32 0)) -> i < 32.
Proof.
  split; [|split; [done|]].
  - apply Forall_cons. split; [lia|]. apply Forall_replicate. lia.
  - assert (fst (v1_plan 32 (sum_list lost_sizes / 32) lost_sizes 0 0 (sum_list lost_sizes / 32) 0 (replicate 32 0) (replicate 32 0)) = seq 0 32) as ->
      by (vm_compute; reflexivity).
    intros i Hi. apply elem_of_seq in Hi. lia.
Qed.
