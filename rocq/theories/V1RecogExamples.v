(* Concrete inputs that meet the hypotheses of the theorems about recognition in Fast MSER
   V1, and a witness for the refutation. *)
From stdpp Require Import sorting relations functions list.
From Coq Require Import NArith ZArith SpecFloat.
From Verif Require Import Spec TreeSpec Grid FloodModel FloodExamples ConnectModel ConnectProof PartModel PartProof
  WholeModel WholeCorrect JoinCorrect JoinExamples FloatModel FloatFacts RecogModel RecogSpec RecogSched RecogResults DetectModel Detect RecogExamples
  V1JoinModel V1Heap V1Model V1BuildModel V1AllocModel V1Build V1Alloc V1Comp V1Examples V1RecogModel V1Recog V1Detect.
Local Open Scope nat_scope. 

Lemma ex_call1 : v1_call 1 1 1 ex_img 4 3 100 600 (ex_mem 1 1 1 4 3) (ex_pinfo 1) exP in_turn.
Proof. exact (Build_v1_call _ _ _ _ _ _ _ _ _ _ _ _ ex_setup1 eq_refl exP_delta exP_sane in_turn_ok). Qed.
Lemma ex_call4 : v1_call 4 2 2 ex_img 4 3 100 600 (ex_mem 4 2 2 4 3) (ex_pinfo 4) exP in_turn.
Proof. exact (Build_v1_call _ _ _ _ _ _ _ _ _ _ _ _ ex_setup4 eq_refl exP_delta exP_sane in_turn_ok). Qed.
Lemma ex_call8 : v1_call 8 4 2 ex_img 4 3 100 600 (ex_mem 8 4 2 4 3) (ex_pinfo 8) exP in_turn.
Proof. exact (Build_v1_call _ _ _ _ _ _ _ _ _ _ _ _ ex_setup8 eq_refl exP_delta exP_sane in_turn_ok). Qed.
Lemma ex_call32 : v1_call 32 8 4 ex32_img 8 5 300 600 (ex_mem 32 8 4 8 5) (ex_pinfo 32) exP in_turn.
Proof. exact (Build_v1_call _ _ _ _ _ _ _ _ _ _ _ _ ex_setup32 eq_refl exP_delta exP_sane in_turn_ok). Qed.

Definition ex_detect (threads hpn vpn : nat) (P : rparam) (img : list N) (cols rows : nat) :=
  match valloc threads cols rows (ex_mem threads hpn vpn cols rows) (ex_pinfo threads) with
  | Some bs => v1_detect 300 600 threads 0 true img cols rows P bs in_turn (fun _ => fzero)
  | None => None
  end.
(* the reported regions: name, level, size, flag; and their number *)
Definition v1_brief (o : option (list (list wreg) * list vbuf * rst * list rref * nat)) : option (list (rref * nat * nat * nat) * nat) :=
  option_map (fun t => let '(_, _, s, l, k) := t in
    (map (fun z => match sget s z with Some a => (z, g_gray a, g_size a, g_flag a) | None => (z, 0, 0, 9) end) l, k)) o.
Lemma ex_detect1 : v1_brief (ex_detect 1 1 1 exP ex_img 4 3) =
  Some ([(0, 4, 0, 1, 2); (0, 2, 1, 1, 2); (0, 3, 1, 1, 2); (0, 6, 7, 9, 2)], 4).
Proof. vm_compute. reflexivity. Qed.
Lemma ex_detect4 : v1_brief (ex_detect 4 2 2 exP ex_img 4 3) =
  Some ([(2, 2, 0, 1, 2); (1, 0, 1, 1, 2); (3, 1, 1, 1, 2); (2, 0, 7, 9, 2)], 4).
Proof. vm_compute. reflexivity. Qed.

(* three dark pixels, a brighter one, three dark ones, the brightest one; regions may
   exceed each other by twice their size *)
Definition twiceP : rparam := RParam 1 flt_max (f32_of_int (-1)) (f32_of_int 2) 1 100.
Definition twice_img : list N := [0; 0; 0; 5; 0; 0; 0; 9]%N.
Lemma twice_call : v1_call 1 1 1 twice_img 8 1 300 600 (ex_mem 1 1 1 8 1) (ex_pinfo 1) twiceP in_turn.
Proof.
  constructor; [|done|by vm_compute|by left|apply in_turn_ok].
  constructor; [done| |done|done|apply ex_mem_ok|apply ex_pinfo_ok|cbn; lia|cbn; lia|cbn; lia].
  apply (v1_fits_intro _ _ _ _ _ 200); try (cbn; lia); done.
Qed.
Lemma twice_brief : v1_brief (ex_detect 1 1 1 twiceP twice_img 8 1) = Some ([(0, 1, 5, 7, 2); (0, 2, 0, 3, 1)], 2).
Proof. vm_compute. reflexivity. Qed.
Lemma brief_bad {A} (o : option A) (f : A -> option (list (list wreg) * list vbuf * rst * list rref * nat)) u v k :
  v1_brief (match o with Some b => f b | None => None end) = Some ([u; (v, 1)], k) ->
  exists bs F os s l x a, o = Some bs /\ f bs = Some (F, os, s, l, k) /\ x ∈ l /\ sget s x = Some a /\ g_flag a = 1.
Proof.
  intros H. destruct o as [bs|]; [|done]. destruct (f bs) as [[[[[F os] s] l] k']|] eqn:E; [|done].
  cbn [v1_brief option_map] in H. injection H as H1 ->. destruct l as [|x [|y [|? ?]]]; try done. cbn [map] in H1. injection H1 as _ H1.
  destruct (sget s y) as [a|] eqn:Ey; [|done]. injection H1 as _ Hf.
  exists bs, F, os, s, [x; y], y, a. split; [done|]. split; [done|]. split; [right; left|]. auto.
Qed.
Lemma twice_bad : exists bs F os s l x a,
  valloc 1 8 1 (ex_mem 1 1 1 8 1) (ex_pinfo 1) = Some bs /\
  v1_detect 300 600 1 0 true twice_img 8 1 twiceP bs in_turn (fun _ => fzero) = Some (F, os, s, l, 2) /\
  x ∈ l /\ sget s x = Some a /\ g_flag a = 1.
Proof.
  refine (brief_bad (valloc 1 8 1 (ex_mem 1 1 1 8 1) (ex_pinfo 1))
    (fun bs => v1_detect 300 600 1 0 true twice_img 8 1 twiceP bs in_turn (fun _ => fzero)) (0, 1, 5, 7, 2) (0, 2, 0, 3) 2 _).
  vm_compute. reflexivity.
Qed.
