(* Specification vocabulary: pixel graphs, connectivity inside a sub-level set,
   and what it means for a table of regions to be the component tree.
   Nothing here refers to the algorithms; there is no code counterpart. *)
From stdpp Require Import sorting relations list.

(* SPEC: a pixel graph.  [nbr p d] is the pixel seen from [p] in direction [d]
   ([None] = outside the picture or partition); [deg] directions exist. *)
Record pgraph := PGraph {
  g_nodes : list nat;
  g_deg : nat;
  g_nbr : nat -> nat -> option nat;
  g_gray : nat -> nat
}.

(* SPEC: two pixels are adjacent. *)
Definition adj (G : pgraph) (p q : nat) : Prop :=
  exists d, d < g_deg G /\ g_nbr G p d = Some q.

(* SPEC: well-formed undirected graph. *)
Record graph_ok (G : pgraph) : Prop := GraphOk {
  gok_nodup : NoDup (g_nodes G);
  gok_closed : forall p q, p ∈ g_nodes G -> adj G p q -> q ∈ g_nodes G;
  gok_sym : forall p q, p ∈ g_nodes G -> adj G p q -> adj G q p;
  gok_irrefl : forall p, p ∈ g_nodes G -> ~ adj G p p
}.

(* SPEC: one step inside the sub-level set of level [l]. *)
Definition lstep (G : pgraph) (l : nat) (p q : nat) : Prop :=
  p ∈ g_nodes G /\ adj G p q /\ g_gray G p <= l /\ g_gray G q <= l.

(* SPEC: [p] and [q] lie in one connected component of the pixels with grey
   level at most [l]. *)
Definition conn (G : pgraph) (l : nat) (p q : nat) : Prop :=
  p ∈ g_nodes G /\ q ∈ g_nodes G /\ g_gray G p <= l /\ g_gray G q <= l /\
  rtc (lstep G l) p q.

(* SPEC: the whole graph is connected. *)
Definition graph_connected (G : pgraph) : Prop :=
  forall p q, p ∈ g_nodes G -> q ∈ g_nodes G -> rtc (adj G) p q.

(* SPEC: a region of a component tree: level, parent, member pixels. *)
Record areg := AReg { rg : nat; rpar : option nat; rl : list nat }.

(* SPEC: parent link of a region table, and "is an ancestor or equal". *)
Definition rparent (regs : list areg) (r t : nat) : Prop :=
  exists a, regs !! r = Some a /\ rpar a = Some t.
Definition under (regs : list areg) : nat -> nat -> Prop := rtc (rparent regs).

(* SPEC: the region table [regs] with pixel labels [lab] is the component tree
   of the graph: labels carry the pixel's level, every region owns a pixel,
   levels increase strictly towards the root, the pixels below a region form
   exactly one connected component of the sub-level set of its level, the
   member list lists precisely these pixels once, and there is one root. *)
Record tree_of (G : pgraph) (lab : nat -> nat) (regs : list areg) : Prop := TreeOf {
  to_lab : forall p, p ∈ g_nodes G ->
      exists a, regs !! lab p = Some a /\ rg a = g_gray G p;
  to_own : forall r a, regs !! r = Some a -> exists p, p ∈ g_nodes G /\ lab p = r;
  to_par : forall r a t, regs !! r = Some a -> rpar a = Some t ->
      exists b, regs !! t = Some b /\ rg a < rg b;
  to_comp : forall r a p q, regs !! r = Some a -> p ∈ g_nodes G -> q ∈ g_nodes G ->
      under regs (lab p) r -> (under regs (lab q) r <-> conn G (rg a) p q);
  to_mem : forall r a, regs !! r = Some a ->
      NoDup (rl a) /\ forall p, p ∈ rl a <-> (p ∈ g_nodes G /\ under regs (lab p) r);
  to_root : exists r, (exists a, regs !! r = Some a /\ rpar a = None) /\
      forall r' a', regs !! r' = Some a' -> rpar a' = None -> r' = r
}.
