(* Concrete inputs that meet the hypotheses of the partition, joining and whole
   image theorems, and witnesses for the refutations. *)
From stdpp Require Import sorting relations functions list.
From Coq Require Import NArith.
From Verif Require Import Spec TreeSpec TreeFacts JoinMath Grid FloodModel FloodInit FloodTree FloodCorrect FloodExamples
  ConnectModel ConnectProof PartModel PartProof MergeProof WholeModel WholeProof WholeCorrect JoinCorrect.

(* freshly allocated buffers of all partitions *)
Definition ex_bufs (hpn vpn cols rows : nat) : list fbuf :=
  map (fun r => alloc_patch (r_w r) (r_h r) 0) (rects hpn vpn cols rows).
Lemma ex_bufs_ok hpn vpn cols rows k r b : rects hpn vpn cols rows !! k = Some r ->
  ex_bufs hpn vpn cols rows !! k = Some b -> buf_alloc (r_w r) (r_h r) b.
Proof.
  intros Hr Hb. unfold ex_bufs in Hb. rewrite list_lookup_fmap, Hr in Hb. injection Hb as <-. apply alloc_ok.
Qed.
Lemma ex_bufs_len hpn vpn cols rows : length (ex_bufs hpn vpn cols rows) = vpn * hpn.
Proof. unfold ex_bufs. rewrite map_length. apply rects_length. Qed.

Lemma fits_intro hpn vpn img cols rows v : hpn <= cols -> vpn <= rows -> rows * cols <= length img ->
  forallb (fun x => (x <? 256)%N) img = true -> (N.of_nat (rows * cols) < 2 ^ 29)%N -> 0 < hpn -> 0 < vpn ->
  0 < v < 256 -> forallb (fun x => negb (N.to_nat x =? v)) img = true -> image_fits hpn vpn img cols rows.
Proof.
  intros H1 H2 H3 H4 H5 Hh Hv Hvv H6. constructor; auto.
  - by apply bytes_ok.
  - lia.
  - intros k r Hk. destruct (rects_inside hpn vpn cols rows Hh Hv k r Hk) as [I1 I2]. split. { nia. }
    exists v. split; [lia|]. intros p _ He. rewrite level0 in He. destruct (img !! p) as [x|] eqn:Hx.
    + rewrite (nth_lookup_Some _ _ _ _ Hx) in He. rewrite forallb_forall in H6.
      apply elem_of_list_lookup_2, elem_of_list_In, H6 in Hx. subst v.
      by rewrite Nat.eqb_refl in Hx.
    + rewrite nth_lookup, Hx in He. simpl in He. lia.
Qed.

(* a 4x3 image in four partitions *)
Lemma ex4_fits : image_fits 2 2 ex_img 4 3.
Proof. apply (fits_intro _ _ _ _ _ 200); try (vm_compute; lia); done. Qed.
Definition ex_ts : list (list creg) :=
  match flood_all 100 0 true ex_img 4 0 (rects 2 2 4 3) (ex_bufs 2 2 4 3) with
  | Some (ts, _) => ts | None => [] end.
(* its freshly flooded partitions *)
Lemma ex4_joinable : exists lab, joinable (cut_view 2 2 4 3 (level ex_img 0)) lab (lift_forest ex_ts).
Proof.
  destruct (flood_all_ok 100 0 true ex_img 4
    (fun k r regs b lab => flood_ok ex_img 0 4 (r_top r) (r_left r) (r_w r) (r_h r) k regs b lab)
    (rects 2 2 4 3) (ex_bufs 2 2 4 3) 0) as (ts & os & labs & E & L1 & L2 & HQ).
  { done. }
  { intros k r b Hk Hb.
    destruct (dark_pass ex_img 4 (r_top r) (r_left r) (r_w r) (r_h r) (0 + k) b 100 (level ex_img 0))
      as (_ & regs & b' & lab & _ & E & Fo & _); auto.
    - by apply (wc_fits 4 2 2 ex_img 4 3 eq_refl ex4_fits k r).
    - apply (if_part _ _ _ _ _ ex4_fits k r Hk).
    - by eapply ex_bufs_ok.
    - pose proof (wc_area_le 4 2 2 ex_img 4 3 eq_refl ex4_fits k r Hk). lia.
    - eauto. }
  assert (ts = ex_ts) as -> by (unfold ex_ts; by rewrite E).
  destruct (wc_start 4 2 2 ex_img 4 3 eq_refl ex4_fits 0 ex_ts os labs) as (HT & HB & _ & _); auto.
  exists (whole_lab 2 2 4 3 labs). constructor; auto.
  - apply cut_vsym.
  - exists 12. split; [apply whole_card|]. lia.
Qed.
Lemma ex4_nregs : nregs (lift_forest ex_ts) + 514 < 600.
Proof. vm_compute. lia. Qed.

(* an 8x5 image in 32 partitions *)
Definition ex32_img : list N := map (fun i => N.of_nat (i * 37 mod 53)) (seq 0 40).
Lemma ex32_fits : image_fits 8 4 ex32_img 8 5.
Proof. apply (fits_intro _ _ _ _ _ 200); try (vm_compute; lia); done. Qed.

(* a column of three pixels in four partitions: two partitions are empty *)
Lemma thin_image : exists F os, build_tree 1000 1000 4 0 true [1; 2; 3]%N 1 3 (ex_bufs 2 2 1 3) = Some (F, os) /\
  exists a, fget F (3, 1) = Some a /\ g_flag a <> 3 /\ g_par a = None /\ g_size a = 5.
Proof.
  destruct (build_tree 1000 1000 4 0 true [1; 2; 3]%N 1 3 (ex_bufs 2 2 1 3)) as [[F os]|] eqn:E.
  - exists F, os. split; auto. vm_compute in E. injection E as <- <-. eexists. split; [done|]. split; [done|]. done.
  - vm_compute in E. done.
Qed.

Lemma ex4_pairs : Forall (fun xy => is_Some (fget (lift_forest ex_ts) (fst xy)) /\ is_Some (fget (lift_forest ex_ts) (snd xy)))
    [((0, 0), (1, 0)); ((1, 1), (3, 0)); ((0, 0), (2, 0)); ((2, 0), (0, 0))].
Proof. repeat (apply Forall_cons; split; [split; vm_compute; eauto|]). constructor. Qed.
