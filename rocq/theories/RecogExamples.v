(* Concrete inputs that meet the hypotheses of the recognition theorems, and witnesses
   for the refutations. *)
From stdpp Require Import sorting relations functions list_numbers list.
From Coq Require Import NArith ZArith SpecFloat.
From Verif Require Import Spec TreeSpec TreeFacts JoinMath Grid FloodModel FloodInit FloodTree FloodCorrect FloodExamples
  ConnectModel ConnectProof PartModel PartProof MergeProof WholeModel WholeProof WholeCorrect JoinCorrect JoinExamples FloatModel FloatFacts
  RecogModel RecogSpec RecogStatic RecogWorkers RecogSched RecogTree RecogFinal RecogResults RecogPixels DetectModel Detect.
Local Open Scope nat_scope.

(* every worker runs to its end before the next one starts; round robin *)
Definition one_by_one (F : forest) : list nat :=
  concat (imap (fun i (l : list greg) => replicate (enough (nregs F) (length l)) i) F).
Definition in_turn (F : forest) : list nat :=
  concat (replicate (enough (nregs F) (nregs F)) (seq 0 (length F))).

Lemma moves_app i l l' : moves i (l ++ l') = moves i l + moves i l'.
Proof. induction l as [|j l IH]; [done|]. cbn [moves app]. rewrite IH. lia. Qed.
Lemma moves_rep i n : moves i (replicate n i) = n.
Proof. induction n as [|n IH]; [done|]. cbn [replicate moves]. rewrite Nat.eqb_refl, IH. lia. Qed.
Lemma moves_part i (f : list nat) ls : f ∈ ls -> moves i f <= moves i (concat ls).
Proof.
  induction 1 as [f ls|f g ls _ IH]; cbn [concat]; rewrite moves_app; lia.
Qed.
Lemma one_by_one_ok : finishing one_by_one.
Proof.
  intros F. split.
  - apply Forall_forall. intros i Hi. unfold one_by_one in Hi. apply elem_of_list_In, in_concat in Hi as (l & Hl & Hi).
    apply elem_of_list_In, elem_of_lookup_imap in Hl as (k & r & -> & Hk). apply elem_of_list_In, elem_of_replicate in Hi as [-> _].
    by eapply lookup_lt_Some.
  - intros i l Hl. etrans; [|apply (moves_part i (replicate (enough (nregs F) (length l)) i))]; [by rewrite moves_rep|].
    apply elem_of_lookup_imap. eauto.
Qed.
Lemma enough_mono N n m : n <= m -> enough N n <= enough N m.
Proof. unfold enough. nia. Qed.
Lemma in_turn_ok : finishing in_turn.
Proof.
  intros F. split.
  - apply Forall_forall. intros i Hi. apply elem_of_list_In, in_concat in Hi as (l & Hl & Hi).
    apply elem_of_list_In, elem_of_replicate in Hl as [-> _]. apply elem_of_list_In, elem_of_seq in Hi. lia.
  - intros i l Hl. assert (length l <= nregs F) as Hle.
    { unfold nregs. clear -Hl. revert i Hl. induction F as [|l' F IH]; intros [|i] Hl; [done|done| |].
      - injection Hl as ->. cbn. lia.
      - cbn. specialize (IH i Hl). lia. }
    etrans; [by apply enough_mono|]. assert (forall k, k <= moves i (concat (replicate k (seq 0 (length F))))) as H; [|apply H].
    induction k as [|k IH]; [done|]. cbn [replicate concat]. rewrite moves_app.
    assert (1 <= moves i (seq 0 (length F))); [|lia]. apply lookup_lt_Some in Hl.
    assert (i ∈ seq 0 (length F)) as Hin by (apply elem_of_seq; lia). clear -Hin.
    induction (seq 0 (length F)) as [|j s IH]; [by apply elem_of_nil in Hin|]. cbn [moves].
    apply elem_of_cons in Hin as [->|Hin]; [rewrite Nat.eqb_refl; lia|]. specialize (IH Hin). lia.
Qed.

(* the tree of the 4x3 image in four partitions *)
Definition tree_of (o : option (forest * list fbuf)) : forest := match o with Some t => fst t | None => [] end.
Definition ex4_F : forest := tree_of (build_tree 100 600 4 0 true ex_img 4 3 (ex_bufs 2 2 4 3)).
Definition f32_tenth : flt := S754_finite false 13421773 (-27).
Definition f32_half : flt := S754_finite false 8388608 (-24).
(* delta 1, maximal variation 3, similarity 0.1, duplicates 0.5, sizes 1 to 11 *)
Definition exP : rparam := RParam 1 (f32_of_int 3) f32_tenth f32_half 1 11.
Definition ex_s0 (F : forest) : rst := RSt F (fun _ => fzero) (fun _ => false).
Definition ex4_mode : mode := mode_of 4 (rects 2 2 4 3) (in_turn ex4_F).
Definition ex4_mode2 : mode := mode_of 4 (rects 2 2 4 3) (one_by_one ex4_F).

Lemma ex4_whole : exists os lab, whole_ok 2 2 ex_img 0 4 3 ex4_F os lab.
Proof.
  destruct (build_ok 4 2 2 ex_img 4 3 eq_refl ex4_fits 100 600 (ex_bufs 2 2 4 3)) as (F & os & lab & E & HW & _); auto.
  - apply ex_bufs_ok. - lia. - lia.
  - exists os, lab. unfold ex4_F. by rewrite E.
Qed.
(* any parameters with an i32 delta, any of the three ways to run *)
Lemma ex4_ready P m : delta_ok P -> m = One \/ m = ex4_mode \/ m = ex4_mode2 ->
  exists lab, ready (image_view ex_img 0 4 3) lab ex4_F P 600 m (ex_s0 ex4_F).
Proof.
  intros Hd Hm. destruct ex4_whole as (os & lab & HW). exists lab.
  assert (small_image 4 3) as Hsm by done.
  destruct (whole_ready 4 2 2 ex_img 4 3 0 eq_refl ex4_fits Hsm ex4_F os lab P 600 (in_turn ex4_F) (fun _ => fzero) HW Hd ltac:(lia) (in_turn_ok _)) as [A1 A2 A3 A4 A5 A6].
  destruct (whole_ready 4 2 2 ex_img 4 3 0 eq_refl ex4_fits Hsm ex4_F os lab P 600 (one_by_one ex4_F) (fun _ => fzero) HW Hd ltac:(lia) (one_by_one_ok _)) as [_ _ _ B4 _ _].
  destruct Hm as [->|[->| ->]]; constructor; try assumption; exact I.
Qed.
Lemma exP_delta : delta_ok exP.
Proof. by vm_compute. Qed.
Lemma exP_sane : sane exP.
Proof. by left. Qed.
Lemma exP_below : below1 (p_dup exP).
Proof. by vm_compute. Qed.
Lemma mapped {A B} (o : option A) (f : A -> B) v : option_map f o = Some v -> exists a, o = Some a /\ f a = v.
Proof. destruct o as [a|]; [|done]. intros [= <-]. eauto. Qed.
(* six candidates (one of seven regions in the limits is suppressed), four of them reported *)
Lemma ex4_result : exists s l b s' l' n b',
  candidates 600 ex4_mode exP (CBuf 0 0) (ex_s0 ex4_F) = Some (s, l, b) /\ length l = 6 /\
  recognize 600 ex4_mode exP (CBuf 0 0) (ex_s0 ex4_F) = Some (s', l', n, b') /\ n = 4.
Proof.
  destruct (mapped (candidates 600 ex4_mode exP (CBuf 0 0) (ex_s0 ex4_F)) (fun t => length (snd (fst t))) 6) as ([[s l] b] & E1 & H1).
  { by vm_compute. }
  destruct (mapped (recognize 600 ex4_mode exP (CBuf 0 0) (ex_s0 ex4_F)) (fun t => snd (fst t)) 4) as ([[[s' l'] n] b'] & E2 & H2).
  { by vm_compute. }
  exists s, l, b, s', l', n, b'. exact (conj E1 (conj H1 (conj E2 H2))).
Qed.

(* without a delta and with a negative maximal variation the serial version still
   reports regions, the parallel one none *)
Definition negP : rparam := RParam 0 fminus1 f32_tenth f32_half 1 11.
Lemma versions_differ : exists s1 l1 n1 b1 s2 l2 n2 b2,
  recognize 600 One negP (CBuf 0 0) (ex_s0 ex4_F) = Some (s1, l1, n1, b1) /\
  recognize 600 ex4_mode negP (CBuf 0 0) (ex_s0 ex4_F) = Some (s2, l2, n2, b2) /\ n1 <> n2.
Proof.
  destruct (mapped (recognize 600 One negP (CBuf 0 0) (ex_s0 ex4_F)) (fun t => snd (fst t)) 5) as ([[[s l] n] b] & E1 & H1).
  { by vm_compute. }
  destruct (mapped (recognize 600 ex4_mode negP (CBuf 0 0) (ex_s0 ex4_F)) (fun t => snd (fst t)) 0) as ([[[s' l'] n'] b'] & E2 & H2).
  { by vm_compute. }
  cbn [fst snd] in H1, H2. exists s, l, n, b, s', l', n', b'. split; [exact E1|]. split; [exact E2|]. lia.
Qed.

(* a buffer of 100 entries is kept for 858993460 candidates *)
Lemma buffer_wraps : exists b total, cb_cap (size_buffer b total) < total.
Proof.
  exists (CBuf 100 0), (N.to_nat 858993460). unfold size_buffer. rewrite N2Nat.id.
  change (858993460 * 5 mod 2 ^ 32 <? N.of_nat (cb_cap (CBuf 100 0)))%N with true. cbn [cb_cap cb_exceed].
  change (10 <? 1) with false. cbv iota. cbn [cb_cap]. lia.
Qed.

(* two rows of 560 pixels: rising even levels above rising odd levels.  In both channels
   nearly every region of the lower right partition has its parent in the upper one. *)
Definition saw_w : nat := 280.
Definition saw_img : list N :=
  map (fun x => N.of_nat (2 * (x mod saw_w mod 127))) (seq 0 (2 * saw_w)) ++
  map (fun x => N.of_nat (2 * (x mod saw_w mod 127) + 1)) (seq 0 (2 * saw_w)).
Lemma saw_fits : image_fits 2 2 saw_img 560 2.
Proof. apply (fits_intro _ _ _ _ _ 254); try (vm_compute; lia); by vm_compute. Qed.
Definition saw_P : rparam := RParam 1 flt_max fminus1 fminus1 1 2000.
Definition saw_sched : list nat := replicate (60 * 100) 3 ++ replicate (60 * 100) 0 ++ replicate (60 * 100) 1 ++ replicate (60 * 100) 2.
Definition saw_caps : list nat := map (fun r => r_w r * r_h r + 257) (rects 2 2 560 2).
(* the trees of both channels, the room left after the dark channel, and whether the
   bright channel has enough room with and without the move of m_heap *)
Definition two_channels (n fuel : nat) (img : list N) (cols rows : nat) (P : rparam) (sched caps : list nat) (bs : list fbuf)
  : option (list nat * bool * bool) :=
  match build_tree n fuel 4 0 true img cols rows bs with
  | Some (F, os) =>
      match candidates_4 P sched caps (CBuf 0 0) (ex_s0 F), build_tree n fuel 4 255 false img cols rows os with
      | Some (_, _, _, caps'), Some (F2, os2) =>
          Some (caps',
            match candidates_4 P sched caps (CBuf 0 0) (ex_s0 F2) with Some _ => true | None => false end,
            match candidates_4 P sched caps' (CBuf 0 0) (ex_s0 F2) with Some _ => true | None => false end)
      | _, _ => None
      end
  | None => None
  end.
Lemma saw_run_eq : two_channels (100 * 100) 2000 saw_img 560 2 saw_P saw_sched saw_caps (ex_bufs 2 2 560 2) = Some ([260; 258; 260; 260], true, false).
Proof. vm_compute. done. Qed.
