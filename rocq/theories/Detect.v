(* Finding the regions of an image: building the tree and recognition together. *)
From stdpp Require Import sorting relations functions list_numbers list.
From Coq Require Import NArith ZArith SpecFloat.
From Verif Require Import Spec TreeSpec TreeFacts JoinMath Grid FloodModel FloodInit FloodTree FloodCorrect
  ConnectModel ConnectProof PartModel PartProof MergeProof WholeModel WholeProof WholeCorrect JoinCorrect FloatModel FloatFacts
  RecogModel RecogSpec RecogStatic RecogWorkers RecogSched RecogTree RecogFinal RecogResults RecogPixels DetectModel.
Local Open Scope nat_scope.

(* SPEC: the image as a view: offsets below rows * cols, four neighbours, the levels of
   the channel (0 dark, 255 bright) *)
Definition image_view (img : list N) (gm : N) (cols rows : nat) : view :=
  rect_view cols 0 0 cols rows (level img gm).
(* SPEC: the image has at most 858993459 pixels *)
Definition small_image (cols rows : nat) : Prop := (N.of_nat (rows * cols) * 5 < 2 ^ 32)%N.

Section det.
Context (threads hpn vpn : nat) (img : list N) (cols rows : nat) (gm : N).
Context (Hgrid : grid_of threads = Some (hpn, vpn)) (HI : image_fits hpn vpn img cols rows) (Hsm : small_image cols rows).
Notation R := (rects hpn vpn cols rows).
Notation V := (image_view img gm cols rows).

Lemma grid_cases : threads = 1 \/ threads = 4 \/ threads = 32.
Proof.
  clear -Hgrid. unfold grid_of in Hgrid. destruct (Nat.eqb_spec threads 1); auto.
  destruct (Nat.eqb_spec threads 4); auto. destruct (Nat.eqb_spec threads 32); auto. done.
Qed.

Lemma whole_input F os lab : whole_ok hpn vpn img gm cols rows F os lab -> recog_input V lab F.
Proof.
  intros [W1 W2 W3 W4 W5 W6 W7]. destruct (grid_pos _ _ _ Hgrid) as (Hh & Hv & _). destruct HI as [Hc Hr _ _ _ _].
  constructor.
  - apply adj4_vsym.
  - eapply (whole_connected hpn vpn cols rows); auto.
  - exact W1.
  - exists (rows * cols). split; [|split; auto]. eapply card_ext; [|exact (whole_card hpn vpn cols rows (fun _ => 0))].
    intros p. symmetry. apply (whole_in hpn vpn cols rows); auto.
  - intros k i a Ha. destruct (W4 k i a Ha) as (_ & ? & ? & ?). auto.
Qed.

Lemma mode_fits F os lab sched : whole_ok hpn vpn img gm cols rows F os lab -> complete F sched ->
  mode_ok F (mode_of threads R sched).
Proof.
  intros [W1 W2 W3 W4 W5 W6 W7] Hs. destruct (grid_pos _ _ _ Hgrid) as (_ & _ & Ht).
  unfold mode_of. destruct grid_cases as [->|[->| ->]]; cbn [Nat.eqb]; [done| |].
  - cbn [mode_ok]. split; [lia|]. split; auto. split; [rewrite map_length, rects_length; lia|].
    intros i c l Hc Hl. rewrite list_lookup_fmap in Hc. destruct (R !! i) as [r|] eqn:Hr; [|done]. injection Hc as <-.
    pose proof (W6 i r l Hr Hl). lia.
  - cbn [mode_ok]. split; [lia|done].
Qed.

Lemma whole_ready F os lab P fuel sched var0 : whole_ok hpn vpn img gm cols rows F os lab -> delta_ok P ->
  rows * cols < fuel -> complete F sched ->
  ready V lab F P fuel (mode_of threads R sched) (RSt F var0 (fun _ => false)).
Proof.
  intros HW Hd Hf Hs. constructor; auto.
  - by eapply whole_input.
  - destruct HW. lia.
  - by eapply mode_fits.
Qed.
End det.

(* SPEC: the buffers are allocated for the partitions of the image *)
Definition allocated (hpn vpn cols rows threads : nat) (bs : list fbuf) : Prop :=
  length bs = threads /\
  forall k r b, rects hpn vpn cols rows !! k = Some r -> bs !! k = Some b -> buf_alloc (r_w r) (r_h r) b.
(* SPEC: schedules that let every worker finish *)
Definition finishing (sched : forest -> list nat) : Prop := forall F, complete F (sched F).

(* the two channels *)
Lemma detect_ready threads hpn vpn img cols rows n fuel P bs sched var0 b :
  grid_of threads = Some (hpn, vpn) -> image_fits hpn vpn img cols rows -> small_image cols rows ->
  allocated hpn vpn cols rows threads bs -> 6 * (rows * cols) < n -> rows * cols + 514 < fuel ->
  delta_ok P -> finishing sched ->
  (exists F os lab s l k b', detect n fuel threads 0 true img cols rows P bs sched var0 b = Some (F, os, s, l, k, b') /\
     ready (image_view img 0 cols rows) lab F P fuel (mode_of threads (rects hpn vpn cols rows) (sched F)) (RSt F var0 (fun _ => false)) /\
     recognize fuel (mode_of threads (rects hpn vpn cols rows) (sched F)) P b (RSt F var0 (fun _ => false)) = Some (s, l, k, b') /\
     forall os' b2 var2, all_reused (rects hpn vpn cols rows) os os' ->
     exists F2 os2 lab2 s2 l2 k2 b2', detect n fuel threads 255 false img cols rows P os' sched var2 b2 = Some (F2, os2, s2, l2, k2, b2') /\
       ready (image_view img 255 cols rows) lab2 F2 P fuel (mode_of threads (rects hpn vpn cols rows) (sched F2)) (RSt F2 var2 (fun _ => false)) /\
       recognize fuel (mode_of threads (rects hpn vpn cols rows) (sched F2)) P b2 (RSt F2 var2 (fun _ => false)) = Some (s2, l2, k2, b2')).
Proof.
  intros Hg HI Hsm [Hl Hb] Hn Hf Hd Hs.
  destruct (build_ok threads hpn vpn img cols rows Hg HI n fuel bs Hl Hb Hn Hf) as (F & os & lab & E & HW & Hbr).
  pose proof (whole_ready threads hpn vpn img cols rows 0 Hg HI Hsm F os lab P fuel (sched F) var0 HW Hd ltac:(lia) (Hs F)) as HR.
  destruct (run_recognize _ _ _ _ _ _ _ HR b) as (s & Er & _).
  eexists F, os, lab, s, _, _, _. split; [unfold detect; rewrite Hg, E, Er; done|]. split; auto. split; [exact Er|].
  intros os' b2 var2 Ho. destruct (Hbr os' Ho) as (F2 & os2 & lab2 & E2 & HW2).
  pose proof (whole_ready threads hpn vpn img cols rows 255 Hg HI Hsm F2 os2 lab2 P fuel (sched F2) var2 HW2 Hd ltac:(lia) (Hs F2)) as HR2.
  destruct (run_recognize _ _ _ _ _ _ _ HR2 b2) as (s2 & Er2 & _).
  eexists F2, os2, lab2, s2, _, _, _. split; [unfold detect; rewrite Hg, E2, Er2; done|]. auto.
Qed.
