(* Specification vocabulary for trees stored with parent pointers, possibly with
   merged (dead) regions that forward to a region of the same level.
   Independent of the algorithms; there is no code counterpart. *)
From stdpp Require Import sorting relations functions list.
From Verif Require Import Spec.

(* SPEC: a set of pixels with an adjacency and grey levels *)
Record view := View {
  vw_in : nat -> Prop;
  vw_adj : nat -> nat -> Prop;
  vw_gray : nat -> nat
}.

(* SPEC: two adjacent pixels of the set that are both at most as bright as l *)
Definition vstep (V : view) (l p q : nat) : Prop :=
  vw_in V p /\ vw_in V q /\ vw_adj V p q /\ vw_gray V p <= l /\ vw_gray V q <= l.

(* SPEC: p and q lie in one connected component of the pixels with level <= l *)
Definition vconn (V : view) (l p q : nat) : Prop :=
  vw_in V p /\ vw_in V q /\ vw_gray V p <= l /\ vw_gray V q <= l /\ rtc (vstep V l) p q.

(* SPEC: the pixel set is connected *)
Definition vconnected (V : view) : Prop :=
  forall p q, vw_in V p -> vw_in V q ->
    rtc (fun x y => vw_in V x /\ vw_in V y /\ vw_adj V x y) p q.

(* SPEC: offset-addressed pictures.  The pixel in column x of row y has offset
   y * cols + x; rectangles and the four-neighbour relation. *)
Definition in_rect (cols top left w h p : nat) : Prop :=
  top <= p / cols < top + h /\ left <= p mod cols < left + w.
Definition adj4 (cols p q : nat) : Prop :=
  (p / cols = q / cols /\ (S (p mod cols) = q mod cols \/ S (q mod cols) = p mod cols)) \/
  (p mod cols = q mod cols /\ (S (p / cols) = q / cols \/ S (q / cols) = p / cols)).
Definition rect_view (cols top left w h : nat) (gray : nat -> nat) : view :=
  View (in_rect cols top left w h) (adj4 cols) gray.

(* SPEC: a stored region: level, whether it survives (is not merged), size, parent *)
Record vreg (I : Type) := VReg { v_gray : nat; v_live : bool; v_size : nat; v_par : option I }.
Arguments VReg {I} _ _ _ _.
Arguments v_gray {I} _.
Arguments v_live {I} _.
Arguments v_size {I} _.
Arguments v_par {I} _.

Section ctree.
Context {I : Type}.

(* SPEC: t is the parent of r; t is r or one of its ancestors *)
Definition vup (T : I -> option (vreg I)) (r t : I) : Prop :=
  exists a, T r = Some a /\ v_par a = Some t.
Definition vunder (T : I -> option (vreg I)) : I -> I -> Prop := rtc (vup T).

(* SPEC: the set {p | P p} is finite with n elements *)
Definition card_is (P : nat -> Prop) (n : nat) : Prop :=
  exists l, NoDup l /\ (forall p, p ∈ l <-> P p) /\ length l = n.

(* SPEC: the table T with pixel labels lab is the component tree of the view:
   - every pixel is labelled with a stored region of its own level;
   - levels increase strictly towards the root, except that a merged region
     forwards to a region of the same level;
   - the pixels below a surviving region are exactly one connected component of
     the pixels at most as bright as its level, contain a pixel of that level,
     and the recorded size is their number;
   - following parents from any region ends at a region without parent;
   - every component with a pixel of its level is stored (this follows from the
     first and third items). *)
Record ctree (V : view) (lab : nat -> I) (T : I -> option (vreg I)) : Prop := {
  ct_lab : forall p, vw_in V p -> exists a, T (lab p) = Some a /\ v_gray a = vw_gray V p;
  ct_par : forall r a t, T r = Some a -> v_par a = Some t ->
    exists b, T t = Some b /\
      (v_gray a < v_gray b \/ (v_gray a = v_gray b /\ v_live a = false));
  ct_dead : forall r a, T r = Some a -> v_live a = false ->
    exists t b, v_par a = Some t /\ T t = Some b /\ v_gray b = v_gray a;
  ct_own : forall r a, T r = Some a -> v_live a = true ->
    exists p, vw_in V p /\ vw_gray V p = v_gray a /\ vunder T (lab p) r;
  ct_comp : forall r a p q, T r = Some a -> v_live a = true -> vw_in V p -> vw_in V q ->
    vunder T (lab p) r -> (vunder T (lab q) r <-> vconn V (v_gray a) p q);
  ct_size : forall r a, T r = Some a -> v_live a = true ->
    card_is (fun p => vw_in V p /\ vunder T (lab p) r) (v_size a);
  ct_acyc : forall r a, T r = Some a -> exists t b, vunder T r t /\ T t = Some b /\ v_par b = None
}.

(* SPEC: exactly one surviving region has no parent *)
Definition one_root (T : I -> option (vreg I)) : Prop :=
  exists r, (exists a, T r = Some a /\ v_par a = None) /\
    forall r' a', T r' = Some a' -> v_par a' = None -> r' = r.
End ctree.
