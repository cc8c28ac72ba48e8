(* Abstract flooding machine shared by the flooding loops of the repository
   (img_fast_mser_v2.cpp:272-397, img_linked_linear_mser.cpp:463-547).
   Pixels are nodes of a graph, each level's boundary stack is a list, an open
   component carries the list of its finished pixels. The concrete word/heap
   level models refine this machine. *)
From stdpp Require Import sorting relations functions list.
From Verif Require Import Spec.

(* img_fast_mser_v2.cpp:273,281,283,290,314 - the three uses of a pixel word:
   unvisited, waiting/current with the next direction, finished with region. *)
Inductive pst := PU | PW (d : nat) | PD (r : nat).

(* img_fast_mser_v2.h:59-64 - an open component: level, its current region,
   and (abstractly) the list of finished pixels, of which the code of V2 keeps
   only the length, and img_linked_linear_mser.h:76-84 the linked list. *)
Record acomp := AComp { cg : nat; cr : nat; cl : list nat }.

(* img_fast_mser_v2.cpp:245-250,265-270 - the local state of the loop. *)
Record ast := ASt {
  a_px : nat -> pst;
  a_cur : nat;
  a_d : nat;
  a_heap : nat -> list nat;
  a_comps : list acomp;
  a_regs : list areg
}.

(* outcome of one step *)
Inductive ares := ANext (s : ast) | AHalt (s : ast) | AStuck.

Section machine.
Context (G : pgraph).

(* img_fast_mser_v2.cpp:331-340 - first non-empty level among [n] levels from [g]. *)
Fixpoint find_level (h : nat -> list nat) (g n : nat) : option nat :=
  match n with
  | O => None
  | S n' => match h g with [] => find_level h (S g) n' | _ => Some g end
  end.

(* img_fast_mser_v2.cpp:354,369 *)
Definition set_par (regs : list areg) (r t : nat) : list areg :=
  match regs !! r with
  | Some a => <[r := AReg (rg a) (Some t) (rl a)]> regs
  | None => regs
  end.

(* img_fast_mser_v2.cpp:328-329 - the size is recorded when the level is exhausted. *)
Definition set_rl (regs : list areg) (r : nat) (l : list nat) : list areg :=
  match regs !! r with
  | Some a => <[r := AReg (rg a) (rpar a) l]> regs
  | None => regs
  end.

(* img_fast_mser_v2.cpp:347-392 - raise the top component to level [g], or merge
   components until the level fits. [join] is the order in which the pixel
   lists are concatenated (upper component into lower one). *)
Fixpoint amerge (g : nat) (c : acomp) (rest : list acomp) (regs : list areg)
  : option (list acomp * list areg) :=
  match rest with
  | [] => if g <? 257
          then Some ([AComp g (length regs) (cl c)],
                     set_par regs (cr c) (length regs) ++ [AReg g None []])
          else None
  | c2 :: rest' =>
      if g <? cg c2
      then Some (AComp g (length regs) (cl c) :: rest,
                 set_par regs (cr c) (length regs) ++ [AReg g None []])
      else
        let c2' := AComp (cg c2) (cr c2) (cl c2 ++ cl c) in
        let regs' := set_par regs (cr c) (cr c2) in
        if g <=? cg c2 then Some (c2' :: rest', regs')
        else amerge g c2' rest' regs'
  end.

(* img_fast_mser_v2.cpp:272-397 - one direction of the tour, or one "finish pixel
   and take the next one". *)
Definition astep (s : ast) : ares :=
  if a_d s <? g_deg G then
    match g_nbr G (a_cur s) (a_d s) with
    | Some q =>
        match a_px s q with
        | PU =>
            if g_gray G q <? g_gray G (a_cur s) then
              ANext (ASt (<[q := PW 0]> (<[a_cur s := PW (S (a_d s))]> (a_px s)))
                         q 0
                         (<[g_gray G (a_cur s) := a_cur s :: a_heap s (g_gray G (a_cur s))]> (a_heap s))
                         (AComp (g_gray G q) (length (a_regs s)) [] :: a_comps s)
                         (a_regs s ++ [AReg (g_gray G q) None []]))
            else
              ANext (ASt (<[q := PW 0]> (a_px s)) (a_cur s) (S (a_d s))
                         (<[g_gray G q := q :: a_heap s (g_gray G q)]> (a_heap s))
                         (a_comps s) (a_regs s))
        | _ => ANext (ASt (a_px s) (a_cur s) (S (a_d s)) (a_heap s) (a_comps s) (a_regs s))
        end
    | None => ANext (ASt (a_px s) (a_cur s) (S (a_d s)) (a_heap s) (a_comps s) (a_regs s))
    end
  else
    match a_comps s with
    | [] => AStuck
    | c :: rest =>
        let g := g_gray G (a_cur s) in
        let px' := <[a_cur s := PD (cr c)]> (a_px s) in
        let c' := AComp (cg c) (cr c) (a_cur s :: cl c) in
        match a_heap s g with
        | p :: hs =>
            match a_px s p with
            | PW d => ANext (ASt px' p d (<[g := hs]> (a_heap s)) (c' :: rest) (a_regs s))
            | _ => AStuck
            end
        | [] =>
            let regs' := set_rl (a_regs s) (cr c) (cl c') in
            match find_level (a_heap s) (S g) (256 - g) with
            | None => AHalt (ASt px' (a_cur s) (a_d s) (a_heap s) (c' :: rest) regs')
            | Some g' =>
                match a_heap s g', amerge g' c' rest regs' with
                | p :: hs, Some (comps', regs'') =>
                    match a_px s p with
                    | PW d => ANext (ASt px' p d (<[g' := hs]> (a_heap s)) comps' regs'')
                    | _ => AStuck
                    end
                | _, _ => AStuck
                end
            end
        end
    end.

(* img_fast_mser_v2.cpp:250-263 - initial state at the first pixel [p0]. *)
Definition ainit (p0 : nat) : ast :=
  ASt (<[p0 := PW 0]> (fun _ => PU)) p0 0 (fun _ => [])
      [AComp (g_gray G p0) 0 []] [AReg (g_gray G p0) None []].

Fixpoint arun (n : nat) (s : ast) : ares :=
  match n with
  | O => ANext s
  | S n' => match astep s with ANext s' => arun n' s' | r => r end
  end.
End machine.
