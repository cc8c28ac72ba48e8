(* Fast MSER V1's allocation: the slices fill the arrays without overlapping, and the
   buffers carved from them have the sizes the flood needs. *)
From stdpp Require Import sorting relations functions list.
From Coq Require Import NArith ZArith.
From Verif Require Import FloodModel PartModel PartProof RecogModel V1JoinModel V1Heap V1Model V1FloodInit V1BuildModel V1AllocModel V1Build.
Local Open Scope nat_scope.

(* SPEC: pieces (offset, length) that lie one after the other and fill 0..total-1 *)
Definition fills (total : nat) (l : list (nat * nat)) : Prop :=
  flat_map (fun s => seq (fst s) (snd s)) l = seq 0 total.
(* SPEC: the pieces of m_masked_image and m_linked_points *)
Definition pt_pieces (rs : list prect) (ss : list vslice) : list (nat * nat) :=
  zip_with (fun r s => (vs_pt s, (r_w r + 2) * (r_h r + 2))) rs ss.
(* SPEC: the pieces of m_heap *)
Definition hp_pieces (rs : list prect) (ss : list vslice) : list (nat * nat) :=
  zip_with (fun r s => (vs_hp s, r_w r * r_h r + 257)) rs ss.
(* SPEC: a piece for a table that exists *)
Definition opiece (o : option nat) (len : nat) : list (nat * nat) :=
  match o with Some x => [(x, len)] | None => [] end.
(* SPEC: the pieces of m_boundary_regions *)
Definition bd_pieces (rs : list prect) (ss : list vslice) : list (nat * nat) :=
  concat (zip_with (fun r s => opiece (vs_l s) (r_h r) ++ opiece (vs_r s) (r_h r) ++
                               opiece (vs_t s) (r_w r) ++ opiece (vs_b s) (r_w r)) rs ss).

Notation olen b n := (if b then n else 0).
(* entries of the tables of one partition *)
Definition bcost (threads i w h : nat) : nat :=
  match v1_sides threads i with
  | (hl, hr, ht, hb) => olen hl h + olen hr h + olen ht w + olen hb w
  end.
Fixpoint bcosts (threads i : nat) (rs : list prect) : nat :=
  match rs with
  | [] => 0
  | r :: rs' => bcost threads i (r_w r) (r_h r) + bcosts threads (S i) rs'
  end.

Lemma i32_small n : (N.of_nat n < 2 ^ 31)%N -> i32_ok n = Some n.
Proof. intros. unfold i32_ok. destruct (N.ltb_spec (N.of_nat n) (2 ^ 31)); [done|lia]. Qed.

Lemma vside_ok (has : bool) (len bo : nat) : (N.of_nat (bo + olen has len) < 2 ^ 31)%N ->
  vside has len bo = Some ((if has then Some bo else None), (bo + olen has len)%nat).
Proof. intros. unfold vside. destruct has; [by rewrite i32_small|]. by rewrite Nat.add_0_r. Qed.

Definition sfits (o : option nat) (has : bool) (len total : nat) : Prop :=
  match o with Some x => has = true /\ x + len <= total | None => has = false end.

Lemma flat_opiece (has : bool) bo len :
  flat_map (fun s => seq (fst s) (snd s)) (opiece (if has then Some bo else None) len) = seq bo (olen has len).
Proof. destruct has; [|done]. cbn. by rewrite app_nil_r. Qed.

Lemma vlayout_ok threads rs : forall i po ho bo,
  (N.of_nat (po + sum_list (map words rs)) < 2 ^ 31)%N ->
  (N.of_nat (ho + sum_list (map slots rs)) < 2 ^ 31)%N ->
  (N.of_nat (bo + bcosts threads i rs) < 2 ^ 31)%N ->
  exists ss, vlayout threads i rs po ho bo = Some ss /\ length ss = length rs /\
    flat_map (fun s => seq (fst s) (snd s)) (pt_pieces rs ss) = seq po (sum_list (map words rs)) /\
    flat_map (fun s => seq (fst s) (snd s)) (hp_pieces rs ss) = seq ho (sum_list (map slots rs)) /\
    flat_map (fun s => seq (fst s) (snd s)) (bd_pieces rs ss) = seq bo (bcosts threads i rs) /\
    forall k r s, rs !! k = Some r -> ss !! k = Some s ->
      vs_pt s + words r <= po + sum_list (map words rs) /\
      vs_hp s + slots r <= ho + sum_list (map slots rs) /\
      match v1_sides threads (i + k) with
      | (hl, hr, ht, hb) =>
          sfits (vs_l s) hl (r_h r) (bo + bcosts threads i rs) /\ sfits (vs_r s) hr (r_h r) (bo + bcosts threads i rs) /\
          sfits (vs_t s) ht (r_w r) (bo + bcosts threads i rs) /\ sfits (vs_b s) hb (r_w r) (bo + bcosts threads i rs)
      end.
Proof.
  induction rs as [|r rs IH]; intros i po ho bo Hp Hs Hb; [by exists []|].
  cbn [vlayout map sum_list_with bcosts] in *. unfold id in *.
  assert (r_w r * r_h r <= slots r) by (unfold slots; lia).
  unfold vtables. assert (exists hl hr ht hb, v1_sides threads i = (hl, hr, ht, hb)) as (hl & hr & ht & hb & Hsd).
  { destruct (v1_sides threads i) as [[[? ?] ?] ?]. eauto. }
  assert (bcost threads i (r_w r) (r_h r) = olen hl (r_h r) + olen hr (r_h r) + olen ht (r_w r) + olen hb (r_w r)) as Hc
    by (unfold bcost; by rewrite Hsd).
  rewrite Hsd, Hc in *. rewrite !vside_ok by lia.
  fold (words r) (slots r). unfold id. rewrite (i32_small (words r)), (i32_small (r_w r * r_h r)) by lia.
  rewrite (i32_small (po + words r)) by lia. fold (slots r). rewrite (i32_small (ho + slots r)) by lia.
  destruct (IH (S i) (po + words r) (ho + slots r) (bo + (olen hl (r_h r)) + (olen hr (r_h r)) + (olen ht (r_w r)) + (olen hb (r_w r))))
    as (ss & -> & Hl & F1 & F2 & F3 & F4); [lia|lia|lia|].
  eexists. split; [reflexivity|]. split; [cbn [length]; by rewrite Hl|].
  unfold pt_pieces, hp_pieces, bd_pieces in *. cbn [zip_with concat flat_map fst snd vs_pt vs_hp vs_l vs_r vs_t vs_b].
  rewrite F1, F2. split_and!.
  - change ((r_w r + 2) * (r_h r + 2)) with (words r). by rewrite <-seq_app.
  - change (r_w r * r_h r + 257) with (slots r). by rewrite <-seq_app.
  - rewrite flat_map_app, F3. rewrite !flat_map_app, !flat_opiece. rewrite <-!app_assoc.
    rewrite <-!seq_app. f_equal. lia.
  - intros k r' s Hk Hk'. destruct k as [|k].
    + injection Hk as <-. injection Hk' as <-. rewrite Nat.add_0_r, Hsd. cbn [vs_pt vs_hp vs_l vs_r vs_t vs_b].
      split; [lia|]. split; [lia|]. unfold sfits. destruct hl, hr, ht, hb; split_and!; auto; lia.
    + destruct (F4 k r' s Hk Hk') as (A1 & A2 & A3). split; [lia|]. split; [lia|].
      replace (i + S k) with (S i + k) by lia. destruct (v1_sides threads (S i + k)) as [[[xl xr] xt] xb].
      unfold sfits in *. destruct A3 as (B1 & B2 & B3 & B4).
      split_and!; [destruct (vs_l s)|destruct (vs_r s)|destruct (vs_t s)|destruct (vs_b s)]; auto;
      [destruct B1|destruct B2|destruct B3|destruct B4]; split; auto; lia.
Qed.

Lemma sides_eq threads hpn vpn k : v1_grid threads = Some (hpn, vpn) -> k < threads ->
  v1_sides threads k = (has_left hpn k, has_right hpn k, has_top hpn k, has_bot hpn threads k).
Proof.
  unfold v1_grid. intros Hg Hk.
  repeat (case_match; [match goal with H : (_ =? _) = true |- _ => apply Nat.eqb_eq in H; subst threads end;
    injection Hg as <- <-; clear -Hk; do 32 (destruct k as [|k]; [reflexivity|try (exfalso; lia)])|]); try done; exfalso; lia.
Qed.

(* SPEC: entries of all tables: two per pixel of every seam *)
Definition seam_entries (hpn vpn cols rows : nat) : nat := 2 * ((hpn - 1) * rows + (vpn - 1) * cols).

Lemma bcosts_eq threads hpn vpn cols rows : v1_grid threads = Some (hpn, vpn) ->
  bcosts threads 0 (rects hpn vpn cols rows) = seam_entries hpn vpn cols rows.
Proof.
  unfold v1_grid. intros Hg.
  assert (2 * (cols / 2) <= cols) by (apply Nat.mul_div_le; lia).
  assert (4 * (cols / 4) <= cols) by (apply Nat.mul_div_le; lia).
  assert (8 * (cols / 8) <= cols) by (apply Nat.mul_div_le; lia).
  assert (2 * (rows / 2) <= rows) by (apply Nat.mul_div_le; lia).
  assert (4 * (rows / 4) <= rows) by (apply Nat.mul_div_le; lia).
  unfold seam_entries.
  repeat (case_match; [match goal with H : (_ =? _) = true |- _ => apply Nat.eqb_eq in H; subst threads end;
    injection Hg as <- <-; unfold rects;
    repeat match goal with |- context[cuts _ (?a / ?b)] => let q := fresh "q" in let Eq := fresh "Eq" in remember (a / b) as q eqn:Eq; clear Eq end;
    cbn; lia|]); try done.
Qed.

Lemma slice_len {A} (l : list A) o len : o + len <= length l -> length (slice l o len) = len.
Proof. intros. unfold slice. rewrite take_length, drop_length. lia. Qed.

Lemma carve_len m rs ss hl : length ss = length rs -> length hl = length rs -> length (vcarve_all m rs ss hl) = length rs.
Proof.
  revert ss hl. induction rs as [|r rs IH]; intros [|s ss] [|[hs lvl] hl]; try done. cbn. intros [=] [=]. f_equal. auto.
Qed.
Lemma carve_at m rs ss hl k r s hs lvl : rs !! k = Some r -> ss !! k = Some s -> hl !! k = Some (hs, lvl) ->
  vcarve_all m rs ss hl !! k = Some (vcarve m r s hs lvl).
Proof.
  revert ss hl k. induction rs as [|r0 rs IH]; intros [|s0 ss] [|[hs0 lvl0] hl] [|k]; try done.
  - cbn. by intros [= ->] [= ->] [= -> ->].
  - cbn. apply IH.
Qed.

Lemma side_fits m o has len : sfits o has len (length (vm_bnd m)) -> side_alloc has len ((fun x => slice (vm_bnd m) x len) <$> o).
Proof.
  unfold sfits, side_alloc. destruct o as [x|]; cbn; [|by intros ->]. intros [-> Hx]. split; [done|]. by apply slice_len.
Qed.

Lemma carve_points m rs ss hl : length ss = length rs -> length hl = length rs ->
  (forall k r s, rs !! k = Some r -> ss !! k = Some s -> vs_pt s + words r <= length (vm_pts m)) ->
  v1_points (vcarve_all m rs ss hl) = sum_list (map words rs).
Proof.
  revert ss hl. induction rs as [|r rs IH]; intros [|s ss] [|[hs lvl] hl]; try done. cbn [length]. intros [=] [=] Hf.
  assert (v1_points (vcarve_all m rs ss hl) = sum_list (map words rs)) as He.
  { apply IH; auto. intros k r' s' Hk Hk'. by apply (Hf (S k) r' s'). }
  unfold v1_points, num2 in *. cbn [vcarve_all fmap list_fmap map sum_list_with vcarve vb_pts].
  change ((r_w r + 2) * (r_h r + 2)) with (words r). rewrite slice_len by (by apply (Hf 0 r s)).
  unfold id. cbn. f_equal. exact He.
Qed.

(* SPEC: contents of m_heap_start and m_level_size of every partition: 257 entries each *)
Definition pinfo_sized (threads : nat) (pinfo : list (list nat * list nat)) : Prop :=
  length pinfo = threads /\ forall k hs lvl, pinfo !! k = Some (hs, lvl) -> length hs = 257 /\ length lvl = 257.

Lemma grid_prod threads hpn vpn : v1_grid threads = Some (hpn, vpn) -> 0 < hpn /\ 0 < vpn /\ vpn * hpn = threads.
Proof.
  unfold v1_grid. intros Hg.
  repeat (case_match; [match goal with H : (_ =? _) = true |- _ => apply Nat.eqb_eq in H; subst threads end;
    injection Hg as <- <-; lia|]); done.
Qed.

Lemma bsize_eq threads hpn vpn cols rows : v1_grid threads = Some (hpn, vpn) ->
  (N.of_nat ((cols + 2 * hpn) * (rows + 2 * vpn)) < 2 ^ 31)%N ->
  v1_bsize threads cols rows = seam_entries hpn vpn cols rows /\
  (N.of_nat (seam_entries hpn vpn cols rows) < 2 ^ 31)%N.
Proof.
  intros Hg Hs. destruct (grid_prod _ _ _ Hg) as (Hh & Hv & _).
  assert (seam_entries hpn vpn cols rows <= (cols + 2 * hpn) * (rows + 2 * vpn)) by (unfold seam_entries; nia).
  split; [|lia]. unfold v1_bsize. rewrite <-(wrap_small (seam_entries hpn vpn cols rows)) by lia. f_equal.
  unfold seam_entries. unfold v1_grid in Hg.
  repeat (case_match; [injection Hg as <- <-; lia|]); done.
Qed.

Lemma valloc_ok threads hpn vpn cols rows m pinfo :
  v1_grid threads = Some (hpn, vpn) ->
  (N.of_nat ((cols + 2 * hpn) * (rows + 2 * vpn)) < 2 ^ 31)%N ->
  (N.of_nat (rows * cols + 257 * threads) < 2 ^ 31)%N ->
  vmem_sized threads hpn vpn cols rows m -> pinfo_sized threads pinfo ->
  exists ss bs, vlayout threads 0 (rects hpn vpn cols rows) 0 0 0 = Some ss /\ length ss = threads /\
    fills (length (vm_img m)) (pt_pieces (rects hpn vpn cols rows) ss) /\
    fills (length (vm_pts m)) (pt_pieces (rects hpn vpn cols rows) ss) /\
    fills (length (vm_heap m)) (hp_pieces (rects hpn vpn cols rows) ss) /\
    fills (length (vm_bnd m)) (bd_pieces (rects hpn vpn cols rows) ss) /\
    valloc threads cols rows m pinfo = Some bs /\ v1_bufs hpn vpn cols rows bs /\
    v1_points bs = (cols + 2 * hpn) * (rows + 2 * vpn).
Proof.
  intros Hg Hs1 Hs2 (M1 & M2 & M3 & M4) (P1 & P2). destruct (grid_prod _ _ _ Hg) as (Hh & Hv & Ht).
  destruct (bsize_eq _ _ _ cols rows Hg Hs1) as (B1 & B2).
  rewrite pt_size_eq in M1, M2 by auto. rewrite <-Ht in M3, Hs2, P1. rewrite (h_size_eq hpn vpn cols rows) in M3 by auto. subst threads. rewrite B1 in M4.
  set (R := rects hpn vpn cols rows) in *. assert (length R = vpn * hpn) as HR by apply rects_length.
  pose proof (words_sum hpn vpn cols rows Hh Hv) as Hw. pose proof (slots_sum hpn vpn cols rows Hh Hv) as Hsl. fold R in Hw, Hsl.
  pose proof (bcosts_eq _ _ _ cols rows Hg) as Hb. fold R in Hb.
  destruct (vlayout_ok (vpn * hpn) R 0 0 0 0) as (ss & HL & Hl & F1 & F2 & F3 & F4); [by rewrite Hw|by rewrite Hsl|by rewrite Hb|].
  exists ss, (vcarve_all m R ss pinfo). cbn [Nat.add] in F4.
  unfold fills. rewrite F1, F2, F3, M1, M2, M3, M4, Hw, Hsl, Hb.
  split_and!; auto; [lia| | |].
  - unfold valloc. rewrite Hg. fold R. by rewrite HL.
  - split; [rewrite carve_len; lia|]. intros k r b Hk Hb'.
    assert (k < vpn * hpn) as Hkn by (rewrite <-HR; by eapply lookup_lt_Some).
    assert (is_Some (ss !! k)) as [s Hks] by (apply lookup_lt_is_Some; lia).
    assert (is_Some (pinfo !! k)) as [[hs lvl] Hkp] by (apply lookup_lt_is_Some; lia).
    fold R in Hk. rewrite (carve_at _ _ _ _ _ _ _ _ _ Hk Hks Hkp) in Hb'. injection Hb' as <-.
    destruct (F4 k r s Hk Hks) as (A1 & A2 & A3). rewrite (sides_eq _ _ _ _ Hg Hkn) in A3.
    destruct (P2 _ _ _ Hkp) as (Q1 & Q2). destruct A3 as (C1 & C2 & C3 & C4). rewrite Hb, <-M4 in C1, C2, C3, C4.
    unfold words in A1. unfold slots in A2.
    constructor; cbn [vcarve vb_img vb_heap vb_hs vb_pts vb_tab tb_l tb_r tb_t tb_b].
    + apply slice_len. rewrite M1, <-Hw. exact A1.
    + apply slice_len. rewrite M3, <-Hsl. exact A2.
    + by rewrite insert_length.
    + apply list_lookup_insert. lia.
    + rewrite slice_len; [nia|]. rewrite M2, <-Hw. exact A1.
    + by apply side_fits.
    + by apply side_fits.
    + by apply side_fits.
    + by apply side_fits.
  - rewrite carve_points; [done|lia|lia|]. intros k r s Hk Hks. rewrite M2, <-Hw. apply (F4 k r s Hk Hks).
Qed.
