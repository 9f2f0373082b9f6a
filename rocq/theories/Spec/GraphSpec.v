(** Specification of the graphs. *)
From Coq Require Export Sorted.
From Verif Require Export Model.Graph.

(** Edge number [i] is [e] and has not been removed. *)
Definition live (g : graph) (i : Z) (e : edge) : Prop := rd (edges g) i = Some e /\ ~ (src e = 0 /\ tgt e = 0).
(** [e] joins [a] and [b]. *)
Definition joins (e : edge) (a b : Z) : Prop := (src e = a /\ tgt e = b) \/ (src e = b /\ tgt e = a).
Definition touches (e : edge) (n : Z) : Prop := src e = n \/ tgt e = n.

(** ** Bookkeeping *)

(** The list of edges kept at node [n] (empty when there is none). *)
Definition list_at (g : graph) (n : Z) : list Z := match map_find n (nodeEdges g) with Some l => l | None => [] end.

(** What the list at [n] has to be: the indices of the edges at [n], increasing, twice for the loops at [n]. *)
Definition ends_at (n : Z) (e : edge) : nat := if isActive e then ((if (src e =? n)%Z then 1 else 0) + (if (tgt e =? n)%Z then 1 else 0))%nat else 0%nat.
Definition edges_at (n : Z) (es : list edge) : list Z :=
  flat_map (fun i => match rd es i with Some e => repeat i (ends_at n e) | None => [] end) (zseq (Z.of_nat (length es))).

Definition increasing (l : list Z) : Prop := StronglySorted Z.lt l.

(** A graph whose bookkeeping is right: the number of edges, the lists at the nodes; the ends of the edges are nodes and have a
    list; sets and maps are sorted. *)
Definition good_graph (g : graph) : Prop :=
  edgeNbr g = Z.of_nat (length (edges g)) /\ (forall n, list_at g n = edges_at n (edges g)) /\
  increasing (nodes g) /\ increasing (map fst (nodeEdges g)) /\ increasing (map fst (nodeValues g)) /\
  (forall i e n, live g i e -> touches e n -> In n (map fst (nodeEdges g))) /\ incl (map fst (nodeEdges g)) (nodes g) /\ incl (map fst (nodeValues g)) (nodes g).

(** No two edges join the same nodes. *)
Definition simple (g : graph) : Prop := forall i j e f a b, live g i e -> live g j f -> joins e a b -> joins f a b -> i = j.

(** ** Operations *)
Inductive gop :=
| OClear | OAddNode (n : Z) | OAddNodeVal (n v : Z) | OAddEdge (e : edge) (check : bool)
| ORemoveEdge (i : Z) | ORemoveNodes (a b : Z) | ORemoveFind (e : edge) | ORemoveNodeEdges (n : Z) | ORemoveHigh (th : Z) | ORemoveLow (th : Z).
Definition do_op (g : graph) (o : gop) : option graph :=
  match o with
  | OClear => Some (clear g)
  | OAddNode n => Some (addNode g n)
  | OAddNodeVal n v => Some (addNode_val g n v)
  | OAddEdge e c => Some (addEdge g e c)
  | ORemoveEdge i => Some (removeEdge g i)
  | ORemoveNodes a b => Some (removeEdge_nodes g a b)
  | ORemoveFind e => Some (removeEdge_find g e)
  | ORemoveNodeEdges n => removeNodeEdges g n
  | ORemoveHigh th => Some (removeHighEdges g th)
  | ORemoveLow th => Some (removeLowEdges g th)
  end.
Definition run (l : list gop) (g : graph) : option graph := fold_opt do_op l g.

(** The edge (0,0) is not added; nodes carrying a loop are not asked to drop their edges. *)
Definition sound_op (g : graph) (o : gop) : Prop :=
  match o with
  | OAddEdge e _ => ~ (src e = 0 /\ tgt e = 0)
  | ORemoveNodeEdges n => forall i e, live g i e -> ~ (src e = n /\ tgt e = n)
  | _ => True
  end.
(** Histories: no loops. *)
Definition loopless (o : gop) : Prop := match o with OAddEdge e _ => src e <> tgt e | _ => True end.
Definition checked (o : gop) : Prop := match o with OAddEdge _ c => c = true | _ => True end.

(** What an operation does to the edges: those of [g] that [P] spares remain, under the same indices, and no other. *)
Definition keeps (P : Z -> edge -> Prop) (g g' : graph) : Prop := forall i e, live g' i e <-> live g i e /\ ~ P i e.
(** What the operations are meant to do. *)
Definition meant (g : graph) (o : gop) (g' : graph) : Prop :=
  match o with
  | OClear => forall i e, ~ live g' i e
  | OAddNode n => (forall m, In m (nodes g') <-> m = n \/ In m (nodes g)) /\ keeps (fun _ _ => False) g g' /\ nodeValues g' = nodeValues g
  | OAddNodeVal n v => (forall m, In m (nodes g') <-> m = n \/ In m (nodes g)) /\ keeps (fun _ _ => False) g g' /\ forall m, map_find m (nodeValues g') = if m =? n then Some v else map_find m (nodeValues g)
  | OAddEdge e check =>
      ((check = true /\ exists i f, live g i f /\ joins f (src e) (tgt e)) /\ g' = g) \/
      (~ (check = true /\ exists i f, live g i f /\ joins f (src e) (tgt e)) /\ (forall m, In m (nodes g') <-> touches e m \/ In m (nodes g)) /\
       forall i f, live g' i f <-> live g i f \/ (i = Z.of_nat (length (edges g)) /\ f = e))
  | ORemoveEdge i => keeps (fun j _ => j = i) g g' /\ nodes g' = nodes g
  | ORemoveNodes a b => keeps (fun j f => joins f a b /\ forall k e, live g k e -> joins e a b -> j <= k) g g' /\ nodes g' = nodes g
  | ORemoveFind e => keeps (fun j f => joins f (src e) (tgt e) /\ forall k e', live g k e' -> joins e' (src e) (tgt e) -> j <= k) g g' /\ nodes g' = nodes g
  | ORemoveNodeEdges n => keeps (fun _ f => touches f n) g g' /\ nodes g' = nodes g
  | ORemoveHigh th => keeps (fun _ f => th < wt f) g g' /\ nodes g' = nodes g
  | ORemoveLow th => keeps (fun _ f => wt f < th) g g' /\ nodes g' = nodes g
  end.

(** ** Sorting *)
Definition sorted_by (lt : edge -> edge -> bool) (l : list edge) : Prop := StronglySorted (fun a b => lt b a = false) l.
(** What std::sort promises. *)
Definition sorts (sort : (edge -> edge -> bool) -> list edge -> list edge) : Prop :=
  forall l, Permutation (sort edge_lt l) l /\ sorted_by edge_lt (sort edge_lt l).

(** ** Connection *)
Inductive connected (g : graph) (a : Z) : Z -> Prop :=
| conn_refl : connected g a a
| conn_step b c i e : connected g a b -> live g i e -> joins e b c -> connected g a c.
Inductive linked (S : list edge) (a : Z) : Z -> Prop :=
| link_refl : linked S a a
| link_step b c e : linked S a b -> In e S -> joins e b c -> linked S a c.

(** [lookup] gives every node of the graph the smallest node connected to it, and nothing else. *)
Definition component_labels (g : graph) (lookup : list (Z * Z)) : Prop :=
  increasing (map fst lookup) /\ forall n, (forall l, map_find n lookup = Some l -> In n (nodes g) /\ connected g n l /\ forall m, connected g n m -> l <= m) /\ (In n (nodes g) -> map_find n lookup <> None).

(** ** Spanning trees *)

(** std::priority_queue::top returns an element that no other exceeds. *)
Definition legal_pick (pick : nat -> list edge -> nat) : Prop :=
  forall k pq, pq <> [] -> exists e, nth_error pq (pick k pq) = Some e /\ forall f, In f pq -> edge_lt e f = false.

Definition of_graph (g : graph) (S : list edge) : Prop := forall e, In e S -> exists i, live g i e.
(** [S] connects to [r] all that the graph does. *)
Definition spans (g : graph) (r : Z) (S : list edge) : Prop := of_graph g S /\ forall n, connected g r n -> linked S r n.
(** No edge of [S] has its ends linked by the others. *)
Definition acyclic (S : list edge) : Prop := forall l1 e l2, S = l1 ++ e :: l2 -> ~ linked (l1 ++ l2) (src e) (tgt e).
Definition weight (S : list edge) : Z := fold_right (fun e w => wt e + w) 0 S.
(** A minimum spanning tree of the component of [r]: [S] spans it, has no cycle, and nothing that spans it weighs less. *)
Definition minimum_tree (g : graph) (r : Z) (S : list edge) : Prop :=
  spans g r S /\ acyclic S /\ forall S', spans g r S' -> weight S <= weight S'.
