(** Undirected graphs: Core/include/private/DGraph.hpp.

    Nodes, weights and indices are integers; node types are unsigned, no arithmetic is made on nodes or weights.  A std::set
    is the sorted list of its elements, a std::map the sorted list of its bindings.  The references returned by getNodes,
    getEdges, ... are not modelled.  [None]: undefined behaviour or an exception that leaves the function. *)
From Verif Require Export Model.Geodesic.

(** ** std::set and std::map *)
Fixpoint set_insert (x : Z) (l : list Z) : list Z :=
  match l with
  | [] => [x]
  | y :: l' => if x <? y then x :: l else if x =? y then l else y :: set_insert x l'
  end.
Definition set_mem (x : Z) (l : list Z) : bool := existsb (Z.eqb x) l.
Definition set_erase (x : Z) (l : list Z) : list Z := filter (fun y => negb (y =? x)) l.
Fixpoint map_find {A} (k : Z) (m : list (Z * A)) : option A :=
  match m with
  | [] => None
  | (k', v) :: m' => if k' =? k then Some v else map_find k m'
  end.
Fixpoint map_set {A} (k : Z) (v : A) (m : list (Z * A)) : list (Z * A) :=
  match m with
  | [] => [(k, v)]
  | (k', v') :: m' => if k <? k' then (k, v) :: m else if k =? k' then (k, v) :: m' else (k', v') :: map_set k v m'
  end.

(** ** Edges *)

(** [Edge], 64-157. *)
Record edge := Edge { src : Z; tgt : Z; wt : Z }.
(** [isActive], 118-121, and [desactivate], 126-130. *)
Definition isActive (e : edge) : bool := negb (src e =? 0) || negb (tgt e =? 0).
Definition desactivate (e : edge) : edge := Edge 0 0 (wt e).
(** [operator==], 133-140: the weights are not compared. *)
Definition edge_eq (a b : edge) : bool := ((src b =? src a) && (tgt b =? tgt a)) || ((src b =? tgt a) && (tgt b =? src a)).
(** [operator<], 147-150. *)
Definition edge_lt (a b : edge) : bool := wt b <? wt a.

(** ** Graphs, 196-632 *)
Record graph := Graph { edgeNbr : Z; nodes : list Z; nodeValues : list (Z * Z); edges : list edge; nodeEdges : list (Z * list Z) }.
(** The constructor, 221-223, and [clear], 251-258. *)
Definition graph0 : graph := Graph 0 [] [] [] [].
Definition clear (g : graph) : graph := graph0.

(** [addNode], 261-264 and 267-271. *)
Definition addNode (g : graph) (n : Z) : graph := Graph (edgeNbr g) (set_insert n (nodes g)) (nodeValues g) (edges g) (nodeEdges g).
Definition addNode_val (g : graph) (n v : Z) : graph := Graph (edgeNbr g) (set_insert n (nodes g)) (map_set n v (nodeValues g)) (edges g) (nodeEdges g).

(** std::find on the edges, and [findEdge], 276-292. *)
Fixpoint find_from (i : Z) (e : edge) (l : list edge) : Z :=
  match l with
  | [] => -1
  | a :: l' => if edge_eq a e then i else find_from (i + 1) e l'
  end.
Definition findEdge (g : graph) (e : edge) : Z := find_from 0 e (edges g).

(** [nodeEdgeList[n].push_back(i)]. *)
Definition push_edge (n i : Z) (m : list (Z * list Z)) : list (Z * list Z) :=
  map_set n (match map_find n m with Some l => l | None => [] end ++ [i]) m.

(** [addEdge], 301-314. *)
Definition addEdge (g : graph) (e : edge) (check : bool) : graph :=
  if check && negb (findEdge g e =? -1) then g else
  Graph (edgeNbr g + 1) (set_insert (tgt e) (set_insert (src e) (nodes g))) (nodeValues g) (edges g ++ [e])
    (push_edge (tgt e) (edgeNbr g) (push_edge (src e) (edgeNbr g) (nodeEdges g))).

(** The insertions of [sortEdges], 341-349; [l] is the sorted copy of the edges. *)
Definition rebuild (g : graph) (l : list edge) : graph :=
  fold_left (fun g e => addEdge g e false) l (Graph 0 [] (nodeValues g) [] []).
(** [sortEdges], 334-350.  [sort] is what std::sort does with the edges and the comparison; sorting through reverse iterators
    sorts the reversed sequence. *)
Definition sortEdges (sort : (edge -> edge -> bool) -> list edge -> list edge) (g : graph) (reverse : bool) : graph :=
  rebuild g (if reverse then rev (sort edge_lt (rev (edges g))) else sort edge_lt (edges g)).

(** Erasing the first [i]. *)
Fixpoint erase1 (i : Z) (l : list Z) : list Z :=
  match l with
  | [] => []
  | j :: l' => if j =? i then l' else j :: erase1 i l'
  end.
(** [removeNodeEdge], 385-397. *)
Definition removeNodeEdge (n i : Z) (m : list (Z * list Z)) : list (Z * list Z) :=
  match map_find n m with
  | None => m
  | Some l => map_set n (erase1 i l) m
  end.
Definition with_edges (g : graph) (es : list edge) (m : list (Z * list Z)) : graph := Graph (edgeNbr g) (nodes g) (nodeValues g) es m.

(** The loop of [removeNodeEdges], 409-418.  [None]: the list being run through is erased from, which invalidates the
    iterator. *)
Fixpoint remove_all (n : Z) (l : list Z) (g : graph) : option graph :=
  match l with
  | [] => Some g
  | i :: l' =>
      option_bind (rd (edges g) i) (fun e =>
      if (src e =? n) && (tgt e =? n) then None else
      remove_all n l' (with_edges g (upd (edges g) i (desactivate e)) (removeNodeEdge (if src e =? n then tgt e else src e) i (nodeEdges g))))
  end.
(** [removeNodeEdges], 403-420. *)
Definition removeNodeEdges (g : graph) (n : Z) : option graph :=
  match map_find n (nodeEdges g) with
  | None => Some g
  | Some l => option_bind (remove_all n l g) (fun g' => Some (with_edges g' (edges g') (map_set n [] (nodeEdges g'))))
  end.

(** [removeEdge] of an index, 425-435. *)
Definition removeEdge (g : graph) (i : Z) : graph :=
  match rd (edges g) i with
  | None => g
  | Some e => with_edges g (upd (edges g) i (desactivate e)) (removeNodeEdge (tgt e) i (removeNodeEdge (src e) i (nodeEdges g)))
  end.
(** [removeEdge] of two nodes, 440-448, and of an edge, 453-461. *)
Definition removeEdge_find (g : graph) (e : edge) : graph := if findEdge g e =? -1 then g else removeEdge g (findEdge g e).
Definition removeEdge_nodes (g : graph) (a b : Z) : graph := removeEdge_find g (Edge a b 1).

(** [removeHighEdges], 469-477, and [removeLowEdges], 485-493. *)
Definition remove_if (p : edge -> bool) (g : graph) : graph :=
  fold_left (fun g i => match rd (edges g) i with Some e => if p e then removeEdge g i else g | None => g end) (zseq (Z.of_nat (length (edges g)))) g.
Definition removeHighEdges (g : graph) (th : Z) : graph := remove_if (fun e => th <? wt e) g.
Definition removeLowEdges (g : graph) (th : Z) : graph := remove_if (fun e => wt e <? th) g.

(** ** Labels *)

(** The edges in turn; stops when one call does not return. *)
Fixpoint fold_fuel {A S} (f : S -> A -> option (option S)) (l : list A) (s : S) : option (option S) :=
  match l with
  | [] => Some (Some s)
  | a :: l' => fuel_bind (f s a) (fold_fuel f l')
  end.
(** [propagateLabel], 611-631; the state is the lookup and the list of nodes left.  [fuel] bounds the depth of the calls.
    [None] also stands for the exception of [at]. *)
Fixpoint propagateLabel (fuel : nat) (g : graph) (lbl : Z) (st : list (Z * Z) * list Z) (ind : Z) : option (option (list (Z * Z) * list Z)) :=
  match fuel with
  | O => Some None
  | S fuel' =>
      if negb (set_mem ind (snd st)) then Some (Some st) else
      option_bind (map_find ind (nodeEdges g)) (fun l =>
      fold_fuel (fun st i =>
        option_bind (rd (edges g) i) (fun e =>
        if negb (src e =? ind) then propagateLabel fuel' g lbl st (src e)
        else if negb (tgt e =? ind) then propagateLabel fuel' g lbl st (tgt e)
        else Some (Some st))) l (map_set ind lbl (fst st), set_erase ind (snd st)))
  end.
(** [labelizeNodes], 598-608; [turns] bounds the turns of its loop. *)
Fixpoint label_loop (turns fuel : nat) (g : graph) (st : list (Z * Z) * list Z) : option (option (list (Z * Z))) :=
  match turns with
  | O => Some None
  | S turns' =>
      match snd st with
      | [] => Some (Some (fst st))
      | n :: _ => fuel_bind (propagateLabel fuel g n st n) (label_loop turns' fuel g)
      end
  end.
Definition labelizeNodes (turns fuel : nat) (g : graph) : option (option (list (Z * Z))) := label_loop turns fuel g ([], nodes g).

(** ** Minimum spanning tree *)

(** The loop of [graphMST], 665-681.  std::priority_queue holds its elements in an order of its own: [pick k pq] is the
    place of the element that [top] returns at turn [k], which [pop] then removes. *)
Fixpoint drop_at {A} (i : nat) (l : list A) : list A :=
  match l, i with
  | [], _ => []
  | _ :: l', O => l'
  | a :: l', S i' => a :: drop_at i' l'
  end.
Definition push_edges (g : graph) (n : Z) (pq : list edge) : option (list edge) :=
  option_bind (map_find n (nodeEdges g)) (fun l =>
  fold_opt (fun pq i => option_bind (rd (edges g) i) (fun e => Some (pq ++ [e]))) l pq).
Fixpoint mst_loop (fuel : nat) (k : nat) (pick : nat -> list edge -> nat) (g : graph) (visited : list Z) (pq : list edge) (mst : graph) : option (option graph) :=
  match fuel with
  | O => Some None
  | S fuel' =>
      match pq with
      | [] => Some (Some mst)
      | _ =>
          option_bind (nth_error pq (pick k pq)) (fun e =>
          let pq' := drop_at (pick k pq) pq in
          let go cur := option_bind (push_edges g cur pq') (fun pq'' => mst_loop fuel' (S k) pick g (set_insert cur visited) pq'' (addEdge mst e false)) in
          if negb (set_mem (src e) visited) then go (src e)
          else if negb (set_mem (tgt e) visited) then go (tgt e)
          else mst_loop fuel' (S k) pick g visited pq' mst)
      end
  end.
(** [graphMST], 641-686.  [None]: the first element of an empty map. *)
Definition graphMST (fuel : nat) (pick : nat -> list edge -> nat) (g : graph) : option (option graph) :=
  match nodeEdges g with
  | [] => None
  | (cur, _) :: _ =>
      option_bind (push_edges g cur []) (fun pq =>
      fuel_bind (mst_loop fuel 0 pick g [cur] pq graph0) (fun m =>
      Some (Some (Graph (edgeNbr m) (nodes m) (nodeValues g) (edges m) (nodeEdges m)))))
  end.
