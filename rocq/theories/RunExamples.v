(* Concrete calls of extract that meet the hypotheses, and witnesses for the refutations. *)
From stdpp Require Import sorting relations functions list_numbers list.
From Coq Require Import NArith ZArith SpecFloat.
From Verif Require Import Spec TreeSpec JoinCorrect FloodModel FloodInit FloodExamples ConnectModel ConnectProof PartModel WholeModel WholeCorrect JoinExamples
  FloatModel FloatFacts RecogModel RecogSpec RecogSched RecogTree RecogFinal RecogResults DetectModel Detect RecogExamples RectModel RectFacts
  ExtractModel ExtractMem ExtractDecode ExtractCorrect ExtractTop RunModel RunCorrect RunResults.
Local Open Scope nat_scope.

(* the four workers take turns *)
Definition fill_in_turn (rs : list prect) : list nat := concat (replicate (list_max (map (fun r => r_w r * r_h r) rs)) [0; 1; 2; 3]).
Definition plain (rs : list prect) : chan := Chan in_turn (fun _ => fzero) (fun _ => None) (fill_in_turn rs) (fun _ h => h).
Lemma plain_fair cols rows : fair_chan cols rows (plain (rects 2 2 cols rows)).
Proof.
  split; [exact in_turn_ok|]. split; [|done]. cbn [plain c_fill]. split.
  - intros k Hk. unfold fill_in_turn in Hk. apply elem_of_list_In, in_concat in Hk as (q & Hq & Hk). apply elem_of_list_In, elem_of_replicate in Hq as [-> _].
    apply elem_of_list_In in Hk. set_unfold in Hk. lia.
  - intros k r Hr. unfold fill_in_turn. set (m := list_max _). assert (r_w r * r_h r <= m) as Hle.
    { assert (Forall (fun x => x <= m) (map (fun r => r_w r * r_h r) (rects 2 2 cols rows))) as Hall by (by apply list_max_le).
      eapply Forall_forall in Hall; [exact Hall|]. apply elem_of_list_fmap. exists r. split; auto. by eapply elem_of_list_lookup_2. }
    assert (k < 4) as Hk. { apply lookup_lt_Some in Hr. by rewrite PartProof.rects_length in Hr. }
    etrans; [exact Hle|]. clear -Hk. induction m as [|m IH]; [lia|]. cbn [replicate concat]. unfold turns at 1. rewrite filter_app, app_length. fold (turns k [0; 1; 2; 3]). fold (turns k (concat (replicate m [0; 1; 2; 3]))).
    assert (1 <= turns k [0; 1; 2; 3]); [|lia]. destruct k as [|[|[|[|k]]]]; vm_compute; lia.
Qed.

(* calls of the examples *)
Definition call (threads hpn vpn : nat) (img : list N) (cols rows : nat) (P : rparam) (thr : Z) : option (mres * mres) :=
  extract 1000 1000 threads true true img cols rows P thr (ex_bufs hpn vpn cols rows) (CBuf 0 0)
    (plain (rects hpn vpn cols rows)) (plain (rects hpn vpn cols rows)).
Lemma ex_allocated hpn vpn cols rows : allocated hpn vpn cols rows (vpn * hpn) (ex_bufs hpn vpn cols rows).
Proof. split; [apply ex_bufs_len|]. intros k r b Hr Hb. by eapply ex_bufs_ok. Qed.
(* record j of the dark channel *)
Definition seen (o : option (mres * mres)) (j : nat) : option (list mrec * option (list (Z * Z) * list nat)) :=
  match o with Some (R, _) => Some (r_ms R, visit (length (r_ms R)) R [j]) | None => None end.
Lemma seen_some o j ms v : seen o j = Some (ms, v) -> exists R0 R1, o = Some (R0, R1) /\ r_ms R0 = ms /\ visit (length ms) R0 [j] = v.
Proof. unfold seen. destruct o as [[R0 R1]|]; [|done]. intros [= <- <-]. eauto. Qed.

(* one recursive record with three children *)
Lemma ex_call : exists R0 R1, call 4 2 2 ex_img 4 3 exP 0 = Some (R0, R1) /\ length (r_ms R0) = 4 /\
  visit 4 R0 [3] = Some ([(1, 0); (3, 0); (0, 1); (1, 1); (2, 2); (3, 2); (3, 1); (2, 0); (1, 2)]%Z, [3; 2; 1; 0]) /\ length (r_ms R1) = 5.
Proof.
  assert (match call 4 2 2 ex_img 4 3 exP 0 with Some (R0, R1) => Some (length (r_ms R0), visit 4 R0 [3], length (r_ms R1)) | None => None end =
    Some (4, Some ([(1, 0); (3, 0); (0, 1); (1, 1); (2, 2); (3, 2); (3, 1); (2, 0); (1, 2)]%Z, [3; 2; 1; 0]), 5)) as E by (vm_compute; reflexivity).
  destruct (call _ _ _ _ _ _ _ _) as [[R0 R1]|]; [|discriminate]. injection E as E1 E2 E3. exists R0, R1. auto.
Qed.

(* with one thread regions are found but extraction fails *)
Lemma one_thread_found : exists F os s l k b', detect 1000 1000 1 0 true ex_img 4 3 exP (ex_bufs 1 1 4 3) in_turn (fun _ => fzero) (CBuf 0 0) = Some (F, os, s, l, k, b') /\ k = 4.
Proof.
  assert (match detect 1000 1000 1 0 true ex_img 4 3 exP (ex_bufs 1 1 4 3) in_turn (fun _ => fzero) (CBuf 0 0) with Some (_, _, _, _, k, _) => k | None => 0 end = 4)
    as E by (vm_compute; reflexivity).
  destruct (detect _ _ _ _ _ _ _ _ _ _ _ _ _) as [[[[[[F os] s] l] k] b']|]; [|discriminate]. by exists F, os, s, l, k, b'.
Qed.
(* with 32 threads only the pixels of the first four partitions are listed *)
Definition col_img : list N := concat (replicate 4 [1; 9; 9; 9; 9; 9; 9; 9]%N).
Lemma col_run : exists R0 R1, call 32 8 4 col_img 8 4 exP 0 = Some (R0, R1) /\
  r_ms R0 = [MRec 1 true 4 0 (Rect 0 0 1 1)] /\ visit 1 R0 [0] = Some ([(0, 0)]%Z, [0]).
Proof. apply (seen_some _ 0 [MRec 1 true 4 0 (Rect 0 0 1 1)]). vm_compute. reflexivity. Qed.
Lemma col_fits : image_fits 8 4 col_img 8 4.
Proof. apply (fits_intro _ _ _ _ _ 200); try (vm_compute; lia); done. Qed.
(* a region over two partitions: the rectangle loses its last column *)
Definition box_img : list N :=
  [9; 9; 1; 9; 9; 9; 9; 9; 9; 9;  9; 9; 1; 9; 9; 9; 9; 9; 9; 9;  9; 1; 1; 1; 9; 9; 9; 9; 9; 9;  9; 9; 9; 9; 9; 9; 9; 9; 9; 9]%N.
Lemma box_run : exists R0 R1, call 4 2 2 box_img 10 4 exP 0 = Some (R0, R1) /\
  r_ms R0 = [MRec 1 true 5 0 (Rect 1 0 2 3)] /\ visit 1 R0 [0] = Some ([(2, 0); (2, 1); (1, 2); (2, 2); (3, 2)]%Z, [0]).
Proof. apply (seen_some _ 0 [MRec 1 true 5 0 (Rect 1 0 2 3)]). vm_compute. reflexivity. Qed.
Lemma box_fits : image_fits 2 2 box_img 10 4.
Proof. apply (fits_intro _ _ _ _ _ 200); try (vm_compute; lia); done. Qed.

Lemma one_thread_none : call 1 1 1 ex_img 4 3 exP 0 = None.
Proof. vm_compute. reflexivity. Qed.
Lemma ex_modest : modest_image 4 3.
Proof. unfold modest_image. vm_compute. reflexivity. Qed.
Lemma ex_short : short_sides 4 3.
Proof. unfold short_sides. split; vm_compute; discriminate. Qed.

(* the same image asked for its bright regions, with and without the dark ones *)
Definition bright_pair : list N := concat (replicate 2 [1; 1; 1; 1; 9; 9; 9; 9]%N).
Definition bright_sizes (o : option (mres * mres)) : option (list (nat * N)) :=
  match o with Some (_, R) => Some (map (fun m => (ms_size m, ms_gray m)) (r_ms R)) | None => None end.
Lemma bright_pair_fits : image_fits 2 2 bright_pair 8 2.
Proof. apply (fits_intro 2 2 bright_pair 8 2 5); try (vm_compute; lia); vm_compute; reflexivity. Qed.
Lemma bright_both : bright_sizes (extract 1000 1000 4 true true bright_pair 8 2 exP 0 (ex_bufs 2 2 8 2) (CBuf 0 0) (plain (rects 2 2 8 2)) (plain (rects 2 2 8 2))) = Some [(8, 246%N)].
Proof. vm_compute. reflexivity. Qed.
Lemma bright_alone : bright_sizes (extract 1000 1000 4 false true bright_pair 8 2 exP 0 (ex_bufs 2 2 8 2) (CBuf 0 0) (plain (rects 2 2 8 2)) (plain (rects 2 2 8 2))) = Some [(10, 247%N); (8, 254%N)].
Proof. vm_compute. reflexivity. Qed.
Lemma no_dark n fuel t bright img cols rows P thr bs b c0 c1 Q R :
  extract n fuel t false bright img cols rows P thr bs b c0 c1 = Some (Q, R) -> Q = no_result.
Proof. unfold extract. destruct bright; [destruct (channel _ _ _ _ _ _ _ _ _ _ _ _ _) as [[[X Y] Z]|]|]; congruence. Qed.
Lemma bright_records o1 o2 : bright_sizes o1 = Some [(8, 246%N)] -> bright_sizes o2 = Some [(10, 247%N); (8, 254%N)] ->
  (forall Q R, o2 = Some (Q, R) -> Q = no_result) ->
  exists R0 R R', o1 = Some (R0, R) /\ o2 = Some (no_result, R') /\ map ms_size (r_ms R) = [8] /\ map ms_size (r_ms R') = [10; 8].
Proof.
  intros H1 H2 H3. destruct o1 as [[R0 R]|]; [|discriminate]. destruct o2 as [[Q R']|]; [|discriminate].
  exists R0, R, R'. rewrite (H3 _ _ eq_refl). injection H1 as H1. injection H2 as H2. split; [reflexivity|]. split; [reflexivity|].
  apply (f_equal (map fst)) in H1, H2. rewrite map_map in H1, H2. auto.
Qed.
Lemma bright_alone_wrong : exists img cols rows P n fuel bs b c,
  image_fits 2 2 img cols rows /\ modest_image cols rows /\ short_sides cols rows /\ delta_ok P /\ 6 * (rows * cols) < n /\ rows * cols + 514 < fuel /\
  allocated 2 2 cols rows 4 bs /\ fair_chan cols rows c /\
  exists R0 R R', extract n fuel 4 true true img cols rows P 0 bs b c c = Some (R0, R) /\
    extract n fuel 4 false true img cols rows P 0 bs b c c = Some (no_result, R') /\
    map ms_size (r_ms R) = [8] /\ map ms_size (r_ms R') = [10; 8].
Proof.
  exists bright_pair, 8, 2, exP, 1000, 1000, (ex_bufs 2 2 8 2), (CBuf 0 0), (plain (rects 2 2 8 2)).
  split; [exact bright_pair_fits|]. split; [unfold modest_image; vm_compute; reflexivity|]. split; [unfold short_sides; split; vm_compute; discriminate|]. split; [exact exP_delta|].
  split; [apply Nat.ltb_lt; reflexivity|]. split; [apply Nat.ltb_lt; reflexivity|]. split; [exact (ex_allocated 2 2 8 2)|]. split; [exact (plain_fair 8 2)|].
  apply bright_records; [exact bright_both|exact bright_alone|]. intros Q R. apply no_dark.
Qed.
