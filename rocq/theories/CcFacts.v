(* connect_component reads a byte never written. *)
From stdpp Require Import list_numbers list.
From Coq Require Import ZArith NArith.
From Verif Require Import CcModel.
Local Open Scope nat_scope.

(* SPEC: a pixel different from the background *)
Definition has_figure (src : list N) (step rows cols : nat) (bg : N) : Prop :=
  exists r c v, r < rows /\ c < cols /\ src !! (r * step + c) = Some v /\ v <> bg.

Lemma fold_none {A B} (f : option A -> B -> option A) l : (forall b, f None b = None) -> foldl f None l = None.
Proof. intros H. induction l as [|b l IH]; [done|]. cbn [foldl]. by rewrite H. Qed.

Lemma bounds_ok (src : list N) (step : nat) (bg : N) (l : list (nat * nat)) : forall a x, foldl (fun acc rc =>
    match acc, src !! (fst rc * step + snd rc) with
    | Some (rM, cM, rm, cm), Some v =>
      if (v =? bg)%N then Some (rM, cM, rm, cm)
      else Some (Z.max rM (Z.of_nat (fst rc)), Z.max cM (Z.of_nat (snd rc)), Z.min rm (Z.of_nat (fst rc)), Z.min cm (Z.of_nat (snd rc)))
    | _, _ => None
    end) (Some a) l = Some x ->
  let '(rM0, cM0, rm0, cm0) := a in let '(rM, cM, rm, cm) := x in
  (rM0 <= rM /\ cM0 <= cM /\ rm <= rm0 /\ cm <= cm0)%Z /\
  forall r c v, (r, c) ∈ l -> src !! (r * step + c) = Some v -> v <> bg -> (rm <= Z.of_nat r <= rM)%Z /\ (cm <= Z.of_nat c <= cM)%Z.
Proof.
  induction l as [|[r c] l IH]; intros [[[rM0 cM0] rm0] cm0] [[[rM cM] rm] cm] H.
  - injection H as -> -> -> ->. split; [lia|]. intros r c v Hi. by apply elem_of_nil in Hi.
  - cbn [foldl fst snd] in H. destruct (src !! (r * step + c)) as [v|] eqn:E; [|by rewrite fold_none in H].
    destruct (N.eqb_spec v bg) as [Hv|Hv].
    + specialize (IH _ _ H). cbn in IH. destruct IH as [Hle IH]. split; [done|]. intros r' c' v' Hi Hv' Hne.
      apply elem_of_cons in Hi as [Hi|Hi]; [|by eapply IH]. injection Hi as -> ->. congruence.
    + specialize (IH _ _ H). cbn in IH. destruct IH as [Hle IH]. split; [lia|]. intros r' c' v' Hi Hv' Hne.
      apply elem_of_cons in Hi as [Hi|Hi]; [|by eapply IH]. injection Hi as -> ->. lia.
Qed.
Lemma fill_keeps (src : list N) step bg top lft h w (l : list (nat * nat)) : forall (m0 m : list (option N)), foldl (fun acc rc =>
    match acc with
    | None => None
    | Some m =>
      let k := fst rc * (w + 2) + snd rc in
      if (1 <=? fst rc) && (fst rc <=? h) && (1 <=? snd rc) && (snd rc <=? w) then
        match src !! ((top + fst rc - 1) * step + (lft + snd rc - 1)) with
        | None => None
        | Some v => if (v =? bg)%N then Some (<[2 * k := Some 1%N]> m) else Some (<[2 * k + 1 := Some v]> (<[2 * k := Some 0%N]> m))
        end
      else Some (<[2 * k := Some 1%N]> m)
    end) (Some m0) l = Some m -> m !! (2 * (w + 2) + 1) = m0 !! (2 * (w + 2) + 1).
Proof.
  induction l as [|[r c] l IH]; intros m0 m H.
  - by injection H as ->.
  - cbn [foldl fst snd] in H. cbv zeta in H.
    destruct ((1 <=? r) && (r <=? h) && (1 <=? c) && (c <=? w)) eqn:Ein.
    + destruct (src !! _) as [v|]; [|by rewrite fold_none in H].
      apply andb_true_iff in Ein as [Ein Hcw]. apply andb_true_iff in Ein as [Ein Hc]. apply andb_true_iff in Ein as [Hr Hrh].
      apply Nat.leb_le in Hcw, Hc, Hr, Hrh.
      destruct (v =? bg)%N; apply IH in H; rewrite H.
      * apply list_lookup_insert_ne. lia.
      * rewrite list_lookup_insert_ne by nia. apply list_lookup_insert_ne. lia.
    + apply IH in H. rewrite H. apply list_lookup_insert_ne. lia.
Qed.
Lemma pairs_in r c h w : (r, c) ∈ (r ← seq 0 h; c ← seq 0 w; [(r, c)]) <-> r < h /\ c < w.
Proof.
  rewrite elem_of_list_bind. split.
  - intros (r' & H & Hr). apply elem_of_list_bind in H as (c' & H & Hc). apply elem_of_list_singleton in H. injection H as -> ->.
    apply elem_of_seq in Hr, Hc. lia.
  - intros [Hr Hc]. exists r. split; [|apply elem_of_seq; lia]. apply elem_of_list_bind. exists c. split; [by apply elem_of_list_singleton|]. apply elem_of_seq. lia.
Qed.
Lemma reads_unwritten fuel src step rows cols bg eight : has_figure src step rows cols bg -> connect_component fuel src step rows cols bg eight = None.
Proof.
  intros (r & c & v & Hr & Hc & Hv & Hne). unfold connect_component.
  destruct (cc_bounds src step rows cols bg) as [[[[rM cM] rm] cm]|] eqn:EB; [|done].
  pose proof (bounds_ok src step bg _ _ _ EB) as [_ HB]. destruct (HB r c v) as [H1 H2]; [by apply pairs_in|done|done|].
  cbv zeta. destruct (_ || _); [done|].
  destruct (cc_fill _ _ _ _ _ _ _) as [m|] eqn:EF; [|done].
  unfold cc_fill in EF. apply fill_keeps in EF.
  set (h := Z.to_nat (rM - rm + 1)) in *. set (w := Z.to_nat (cM - cm + 1)) in *.
  assert (1 <= h) by lia. assert (1 <= w) by lia.
  unfold cc_scan. destruct h as [|h']; [lia|]. destruct w as [|w'] eqn:Ew; [lia|]. cbn [seq mbind list_bind app foldl fst snd].
  assert (flag m (cc_start (S w') + 2 * Z.of_nat (0 * (S w' + 2) + 0)) = None) as ->.
  { unfold flag, cc_start. destruct (Z.ltb_spec (1 * (2 * (Z.of_nat (S w') + 2)) + 1 * 1 + 2 * Z.of_nat (0 * (S w' + 2) + 0))%Z 0); [done|].
    replace (Z.to_nat _) with (2 * (S w' + 2) + 1) by lia.
    rewrite lookup_replicate_2 in EF by nia. unfold bytes in *. by rewrite EF. }
  rewrite fold_none; [done|]. by intros [? ?].
Qed.
(* a figure of two components *)
Definition ccx_img : list N := [0; 0; 0; 0; 0;  0; 7; 0; 7; 0;  0; 7; 0; 0; 0]%N.
Lemma ccx_figure : has_figure ccx_img 5 3 5 0.
Proof. exists 1, 1, 7%N. split; [lia|]. split; [lia|]. done. Qed.
(* the loops themselves find the components: with the pointer at the second entry of row 1
   they give the two components *)
Lemma ccx_repaired : match cc_fill ccx_img 5 0 1 1 2 3 with
  | Some m => option_map snd (cc_scan 10 (2 * 5 + 2) 1 1 2 3 (cc_area ccx_img 5 0 1 1 2 3) (cc_offsets false 3) m)
  | None => None
  end = Some [[(1, 1); (1, 2)]; [(3, 1)]]%Z.
Proof. vm_compute. reflexivity. Qed.
