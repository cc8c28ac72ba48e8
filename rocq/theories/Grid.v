(* Rectangular pixel graphs (four neighbours) inside an image of [cols] columns.
   A pixel is identified by its offset y * cols + x in the image.  The directions
   are ordered right, up, left, down as in img_fast_mser_v2.cpp:171-176. *)
From stdpp Require Import sorting relations functions list.
From Coq Require Import ZArith.
From Verif Require Import Spec.

(* SPEC: pixel at row r, column c of a rectangle whose top left corner is (top, left). *)
Definition gid (cols top left r c : nat) : nat := (top + r) * cols + (left + c).

(* SPEC: row and column of a pixel relative to the rectangle *)
Definition grow (cols top p : nat) : nat := p / cols - top.
Definition gcol (cols left p : nat) : nat := p mod cols - left.

(* SPEC: pixels of a rectangle of width w and height h *)
Definition rect_nodes (cols top left w h : nat) : list nat :=
  flat_map (fun r => map (fun c => gid cols top left r c) (seq 0 w)) (seq 0 h).

(* SPEC: neighbour in direction d, inside the rectangle only *)
Definition rect_nbr (cols top left w h : nat) (p d : nat) : option nat :=
  let r := grow cols top p in
  let c := gcol cols left p in
  match d with
  | 0 => if S c <? w then Some (gid cols top left r (S c)) else None
  | 1 => match r with 0 => None | S r' => Some (gid cols top left r' c) end
  | 2 => match c with 0 => None | S c' => Some (gid cols top left r c') end
  | 3 => if S r <? h then Some (gid cols top left (S r) c) else None
  | _ => None
  end.

(* SPEC: the pixel graph of a rectangle *)
Definition rect_graph (cols top left w h : nat) (gray : nat -> nat) : pgraph :=
  PGraph (rect_nodes cols top left w h) 4 (rect_nbr cols top left w h) gray.

Section rect.
Context (cols top left w h : nat) (gray : nat -> nat).
Context (Hfit : left + w <= cols).
Notation G := (rect_graph cols top left w h gray).
Notation gid := (gid cols top left).

Lemma gid_row r c : c < w -> grow cols top (gid r c) = r.
Proof.
  intros Hc. unfold grow, Grid.gid. rewrite Nat.div_add_l by lia.
  rewrite Nat.div_small by lia. lia.
Qed.
Lemma gid_col r c : c < w -> gcol cols left (gid r c) = c.
Proof.
  intros Hc. unfold gcol, Grid.gid.
  rewrite Nat.add_comm, Nat.mod_add by lia. rewrite Nat.mod_small by lia. lia.
Qed.
Lemma gid_inj r c r' c' : c < w -> c' < w -> gid r c = gid r' c' -> r = r' /\ c = c'.
Proof.
  intros H1 H2 He. split.
  - rewrite <-(gid_row r c), <-(gid_row r' c') by auto. by rewrite He.
  - rewrite <-(gid_col r c), <-(gid_col r' c') by auto. by rewrite He.
Qed.
Lemma elem_rect p : p ∈ rect_nodes cols top left w h <-> exists r c, r < h /\ c < w /\ p = gid r c.
Proof.
  clear Hfit. unfold rect_nodes. rewrite elem_of_list_In, in_flat_map. split.
  - intros (r & Hr & Hp). apply in_map_iff in Hp as (c & <- & Hc).
    apply in_seq in Hr. apply in_seq in Hc. exists r, c. repeat split; lia.
  - intros (r & c & Hr & Hc & ->). exists r. split; [apply in_seq; lia|].
    apply in_map_iff. exists c. split; auto. apply in_seq; lia.
Qed.

Lemma NoDup_rect : NoDup (rect_nodes cols top left w h).
Proof.
  unfold rect_nodes. assert (forall n k, NoDup (flat_map (fun r => map (fun c => gid r c) (seq 0 w)) (seq k n))) as H; [|apply H].
  induction n as [|n IH]; intros k; simpl; [constructor|].
  apply NoDup_app. split; [|split; [|apply IH]].
  - apply NoDup_fmap_2_strong; [|apply NoDup_seq].
    intros x y Hx Hy He. apply elem_of_seq in Hx, Hy. apply gid_inj in He as [_ ?]; lia.
  - intros p Hp Hq. apply elem_of_list_In, in_map_iff in Hp as (c & <- & Hc). apply in_seq in Hc.
    apply elem_of_list_In, in_flat_map in Hq as (r & Hr & Hq). apply in_map_iff in Hq as (c' & He & Hc').
    apply in_seq in Hr, Hc'. apply gid_inj in He as [? _]; lia.
Qed.

Lemma length_rect : length (rect_nodes cols top left w h) = w * h.
Proof.
  clear Hfit. unfold rect_nodes. assert (forall n k, length (flat_map (fun r => map (fun c => gid r c) (seq 0 w)) (seq k n)) = w * n) as H; [|apply H].
  induction n as [|n IH]; intros k; simpl; [lia|].
  rewrite app_length, IH, map_length, seq_length. lia.
Qed.

(* neighbours in coordinates *)
Lemma nbr_gid r c d q : r < h -> c < w -> rect_nbr cols top left w h (gid r c) d = Some q <->
  (d = 0 /\ S c < w /\ q = gid r (S c)) \/
  (d = 1 /\ 0 < r /\ q = gid (r - 1) c) \/
  (d = 2 /\ 0 < c /\ q = gid r (c - 1)) \/
  (d = 3 /\ S r < h /\ q = gid (S r) c).
Proof.
  intros Hr Hc. unfold rect_nbr. rewrite gid_row, gid_col by auto.
  destruct d as [|[|[|[|d]]]].
  - destruct (Nat.ltb_spec (S c) w); split; intros; naive_solver lia.
  - destruct r as [|r]; split; intros; simpl in *; rewrite ?Nat.sub_0_r in *; naive_solver lia.
  - destruct c as [|c]; split; intros; simpl in *; rewrite ?Nat.sub_0_r in *; naive_solver lia.
  - destruct (Nat.ltb_spec (S r) h); split; intros; naive_solver lia.
  - split; intros; naive_solver lia.
Qed.

(* SPEC-level adjacency in coordinates *)
Lemma adj_gid r c q : r < h -> c < w -> adj G (gid r c) q <->
  exists r' c', r' < h /\ c' < w /\ q = gid r' c' /\
    ((r' = r /\ (c' = S c \/ c = S c')) \/ (c' = c /\ (r' = S r \/ r = S r'))).
Proof.
  intros Hr Hc. unfold adj. simpl. split.
  - intros (d & Hd & Hq). apply nbr_gid in Hq; auto.
    destruct Hq as [(-> & ? & ->)|[(-> & ? & ->)|[(-> & ? & ->)|(-> & ? & ->)]]].
    + exists r, (S c). naive_solver lia.
    + exists (r - 1), c. naive_solver lia.
    + exists r, (c - 1). naive_solver lia.
    + exists (S r), c. naive_solver lia.
  - intros (r' & c' & Hr' & Hc' & -> & [[-> [->| ->]]|[-> [->| ->]]]).
    + exists 0. split; [lia|]. apply nbr_gid; auto.
    + exists 2. split; [lia|]. apply nbr_gid; auto. right. right. left. replace (S c' - 1) with c' by lia. naive_solver lia.
    + exists 3. split; [lia|]. apply nbr_gid; auto. naive_solver lia.
    + exists 1. split; [lia|]. apply nbr_gid; auto. right. left. replace (S r' - 1) with r' by lia. naive_solver lia.
Qed.

Lemma rect_graph_ok : graph_ok G.
Proof.
  constructor.
  - apply NoDup_rect.
  - intros p q Hp Ha. simpl in *. apply elem_rect in Hp as (r & c & Hr & Hc & ->).
    apply adj_gid in Ha as (r' & c' & ? & ? & -> & _); auto. apply elem_rect. eauto 6.
  - intros p q Hp Ha. simpl in *. apply elem_rect in Hp as (r & c & Hr & Hc & ->).
    apply adj_gid in Ha as (r' & c' & ? & ? & -> & Hx); auto.
    apply adj_gid; auto. exists r, c. naive_solver.
  - intros p Hp Ha. simpl in *. apply elem_rect in Hp as (r & c & Hr & Hc & ->).
    apply adj_gid in Ha as (r' & c' & ? & ? & He & Hx); auto.
    apply gid_inj in He as [-> ->]; auto. lia.
Qed.

(* every pixel reaches the first one *)
Lemma rect_reach r c : r < h -> c < w -> rtc (adj G) (gid 0 0) (gid r c).
Proof.
  intros Hr Hc. induction r as [|r IH].
  - clear Hr. induction c as [|c IHc]; [apply rtc_refl|].
    eapply rtc_r; [apply IHc; lia|]. destruct h as [|h'] eqn:E.
    + exists 0. split; [simpl; lia|]. simpl. unfold rect_nbr. rewrite gid_row, gid_col by lia.
      destruct (Nat.ltb_spec (S c) w); [done|lia].
    + exists 0. split; [simpl; lia|]. simpl. unfold rect_nbr. rewrite gid_row, gid_col by lia.
      destruct (Nat.ltb_spec (S c) w); [done|lia].
  - eapply rtc_r; [apply IH; lia|]. apply adj_gid; try lia. exists (S r), c. naive_solver lia.
Qed.
Lemma rect_connected : graph_connected G.
Proof.
  intros p q Hp Hq. simpl in *.
  apply elem_rect in Hp as (r & c & Hr & Hc & ->). apply elem_rect in Hq as (r' & c' & Hr' & Hc' & ->).
  assert (forall x y, x ∈ g_nodes G -> rtc (adj G) x y -> rtc (adj G) y x) as Hsym.
  { intros x y Hx H. induction H as [x|x y z Hxy H IH]; [apply rtc_refl|].
    assert (y ∈ g_nodes G) by (eapply gok_closed; eauto using rect_graph_ok).
    eapply rtc_r; [apply IH; auto|]. eapply gok_sym; eauto using rect_graph_ok. }
  eapply rtc_transitive; [|apply rect_reach; auto].
  apply Hsym; [|apply rect_reach; auto]. simpl. apply elem_rect. exists 0, 0. repeat split; lia.
Qed.
End rect.

(* the same rectangle with the directions in one of two orders: that of
   img_fast_mser_v2.cpp:171-176 (right, up, left, down) or, if [ms], that of
   img_ms_mser.cpp:142-145 (right, left, down, up) *)
Definition dperm (ms : bool) (d : nat) : nat :=
  if ms then match d with 1 => 2 | 2 => 3 | 3 => 1 | d => d end else d.
Definition dgraph (ms : bool) (cols top left w h : nat) (gray : nat -> nat) : pgraph :=
  PGraph (rect_nodes cols top left w h) 4
    (fun p d => rect_nbr cols top left w h p (dperm ms d)) gray.

Lemma dgraph_adj ms cols top left w h gray p q :
  adj (dgraph ms cols top left w h gray) p q <-> adj (rect_graph cols top left w h gray) p q.
Proof.
  destruct ms; [|done]. unfold adj. cbn [g_deg g_nbr dgraph rect_graph]. split; intros (d & Hd & Hq).
  - exists (dperm true d). split; [|done]. destruct d as [|[|[|[|d]]]]; cbn; lia.
  - exists (match d with 1 => 3 | 2 => 1 | 3 => 2 | d => d end). destruct d as [|[|[|[|d]]]]; (split; [cbn; lia|done]).
Qed.
Lemma dgraph_ok ms cols top left w h gray : left + w <= cols -> graph_ok (dgraph ms cols top left w h gray).
Proof.
  intros Hc. destruct (rect_graph_ok cols top left w h gray Hc) as [H1 H2 H3 H4]. constructor; [done| | |].
  - intros p q Hp Ha. rewrite dgraph_adj in Ha. by apply (H2 p q).
  - intros p q Hp Ha. rewrite dgraph_adj in Ha. apply dgraph_adj. by apply H3.
  - intros p Hp Ha. rewrite dgraph_adj in Ha. by apply (H4 p).
Qed.
Lemma dgraph_connected ms cols top left w h gray : left + w <= cols -> graph_connected (dgraph ms cols top left w h gray).
Proof.
  intros Hc p q Hp Hq. pose proof (rect_connected cols top left w h gray Hc p q Hp Hq) as H.
  clear -H. induction H as [x|x y z Hxy _ IH]; [apply rtc_refl|]. eapply rtc_l; [|exact IH]. by apply dgraph_adj.
Qed.
