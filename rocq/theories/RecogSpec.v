(* Specification of the recognition phase: variations, surviving regions, order and
   duplicates, on trees and pixel sets.  No code counterpart except the float
   operations of FloatModel and the parameter record. *)
From stdpp Require Import sorting relations functions list.
From Coq Require Import ZArith SpecFloat.
From Verif Require Import Spec TreeSpec FloatModel RecogModel.

(* SPEC: the surviving region t is the nearest proper surviving ancestor of r *)
Definition sparent {I} (T : I -> option (vreg I)) (r t : I) : Prop :=
  (exists a, T r = Some a /\ v_live a = true) /\ (exists b, T t = Some b /\ v_live b = true) /\
  r <> t /\ vunder T r t /\
  forall u c, vunder T r u -> T u = Some c -> v_live c = true -> u = r \/ vunder T t u.

(* SPEC: v is the variation over d levels of the set S of level g: the growth of S to
   the component of level g + d around it, relative to its size and in single
   precision, if the picture has a pixel of level g + d or brighter; otherwise -1 *)
Definition variation (V : view) (d g : nat) (S : nat -> Prop) (v : flt) : Prop :=
  ((exists q, vw_in V q /\ g + d <= vw_gray V q) ->
     exists n m, card_is S n /\ card_is (fun q => exists p, S p /\ vconn V (g + d) p q) m /\
       v = f32_growth m n) /\
  (~ (exists q, vw_in V q /\ g + d <= vw_gray V q) -> v = fminus1).

(* SPEC: variation b exceeds variation a by more than the similarity *)
Definition worse_by (nms a b : flt) : Prop := fgt (var_diff b a) (f64_of_f32 nms) = true.

(* SPEC: r and q are parent and child (in either order) of adjacent levels *)
Definition neighbours {I} (T : I -> option (vreg I)) (r q : I) : Prop :=
  exists a b, T r = Some a /\ T q = Some b /\
    ((sparent T r q /\ v_gray b = v_gray a + 1) \/ (sparent T q r /\ v_gray a = v_gray b + 1)).

(* SPEC: the region passes the size limits and is not a root *)
Definition in_limits {I} (P : rparam) (T : I -> option (vreg I)) (r : I) : Prop :=
  exists a, T r = Some a /\ v_live a = true /\
    (p_min P <= Z.of_nat (v_size a) <= p_max P)%Z /\ exists t, sparent T r t.

(* SPEC: the region is a candidate: in the limits, stable enough, and (if the
   similarity is not negative) no parent or child of the adjacent level with a defined
   variation is better by more than the similarity *)
Definition survives {I} (P : rparam) (T : I -> option (vreg I)) (var : I -> flt) (r : I) : Prop :=
  in_limits P T r /\ fgt (var r) (p_stable P) = false /\
  (fge (p_nms P) fzero = true -> forall q, neighbours T r q ->
     fge (var r) fzero = true -> fge (var q) fzero = true -> ~ worse_by (p_nms P) (var q) (var r)).

(* ---------- the same on pixel sets, without a tree ---------- *)
(* SPEC: S is a connected component of the pixels of level at most g and has a
   pixel of level g *)
Definition component (V : view) (g : nat) (S : nat -> Prop) : Prop :=
  exists p0, vw_in V p0 /\ vw_gray V p0 = g /\ forall p, S p <-> vconn V g p0 p.

(* SPEC: S, of level g, is a stable extremal region of the view: a component within the
   size limits that is not the whole picture, whose variation over d levels is at most
   the maximum, and (if the similarity is not negative) no component of an adjacent
   level that contains it or is contained in it is better by more than the similarity,
   as far as both variations are defined *)
Definition mser (V : view) (P : rparam) (d g : nat) (S : nat -> Prop) : Prop :=
  component V g S /\
  (exists n, card_is S n /\ (p_min P <= Z.of_nat n <= p_max P)%Z) /\
  (exists p, vw_in V p /\ ~ S p) /\
  exists v, variation V d g S v /\ fgt v (p_stable P) = false /\
    (fge (p_nms P) fzero = true -> forall g' S' v', component V g' S' -> variation V d g' S' v' ->
       (g' = g + 1 /\ forall p, S p -> S' p) \/ (g = g' + 1 /\ forall p, S' p -> S p) ->
       fge v fzero = true -> fge v' fzero = true -> ~ worse_by (p_nms P) v' v).
