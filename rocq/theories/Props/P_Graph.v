(** C36, C37, C38, C58, C59: graphs. *)
From Verif Require Export Proofs.GraphProofs3.

(** ** C36 *)

(** One operation, on any graph whose bookkeeping is right: it returns, the bookkeeping remains right, and the edges and nodes
    are what the operation is meant to leave.  Missing for the full claim: the edge from node 0 to itself, and [removeNodeEdges]
    at a node that carries a loop. *)
Theorem C36_operation_partial g o : good_graph g -> sound_op g o -> exists g', do_op g o = Some g' /\ good_graph g' /\ meant g o g'.
Proof. apply do_op_ok. Qed.
Print Assumptions C36_operation_partial.

(** Any sequence of operations from the empty graph, without loops: the list at each node is exactly the edges at this node
    that were not removed; and with checking on, no two edges join the same nodes. *)
Theorem C36_history_partial l : Forall loopless l -> exists g, run l graph0 = Some g /\ edgeNbr g = Z.of_nat (length (edges g)) /\
  (forall n i, (exists k, map_find n (nodeEdges g) = Some k /\ In i k) <-> exists e, live g i e /\ touches e n) /\
  (forall n k, map_find n (nodeEdges g) = Some k -> increasing k) /\
  (forall i e n, live g i e -> touches e n -> In n (nodes g)) /\
  (Forall checked l -> simple g).
Proof.
  intros HL. destruct (history l graph0 HL graph0_good) as (g & R & G & NL & S); [intros i e (H & _); apply rd_In in H; destruct H|].
  exists g. split; [exact R|]. destruct G as (G1 & G2 & _ & _ & _ & G6 & G7 & _). split; [exact G1|]. split; [|split; [|split]].
  - intros n i. assert (A : (exists k, map_find n (nodeEdges g) = Some k /\ In i k) <-> In i (list_at g n)).
    { unfold list_at. destruct (map_find n (nodeEdges g)) as [k|]; split; [intros (k' & E & H); injection E as ->; exact H|intros H; exists k; auto|intros (k' & E & _); discriminate|intros []]. }
    rewrite A, G2, edges_at_In. split; intros (e & H); exists e; [destruct H as (E & Ac & T); split; [split; [exact E|apply active_live; exact Ac]|exact T]|destruct H as ((E & Ac) & T); split; [exact E|]; split; [apply active_live; exact Ac|exact T]].
  - intros n k E. assert (k = edges_at n (edges g)) as ->. { rewrite <- G2. unfold list_at. rewrite E. reflexivity. }
    unfold edges_at. assert (O : forall i e, rd (edges g) i = Some e -> (ends_at n e <= 1)%nat).
    { intros i e E'. unfold ends_at. destruct (isActive e) eqn:Ac; [|lia]. apply active_live in Ac. pose proof (NL i e (conj E' Ac)). destruct (src e =? n) eqn:E1, (tgt e =? n) eqn:E2; lia. }
    generalize (Z.of_nat (length (edges g))) as N. intros N. assert (Sz : increasing (zseq N)).
    { unfold zseq. clear. generalize 0%nat as a. induction (Z.to_nat N) as [|k IH]; intros a; cbn; [constructor|]. constructor; [apply IH|]. rewrite Forall_forall. intros x Hx. apply in_map_iff in Hx as (y & <- & Hy). apply in_seq in Hy. lia. }
    induction (zseq N) as [|i q IHq]; cbn [flat_map]; [constructor|]. apply StronglySorted_inv in Sz as (Sz & F). specialize (IHq Sz). destruct (rd (edges g) i) as [e|] eqn:Ei; [|exact IHq].
    pose proof (O i e Ei). destruct (ends_at n e) as [|[|]]; [exact IHq| |lia]. cbn [repeat app]. constructor; [exact IHq|]. rewrite Forall_forall in *. intros x Hx. apply in_flat_map in Hx as (y & Hy & Hx). specialize (F y Hy). destruct (rd (edges g) y); [|destruct Hx]. apply repeat_spec in Hx. subst x. exact F.
  - intros i e n L T. apply G7. eapply G6; eassumption.
  - intros HC. apply S; [exact HC|]. intros i j e f a b (H & _). apply rd_In in H. destruct H.
Qed.
Print Assumptions C36_history_partial.

(** In C36's words, false: the edge from node 0 to itself is listed at node 0 although it counts as removed; and
    [removeNodeEdges] at a node carrying a loop has no defined behaviour. *)
Theorem C36_bookkeeping_refuted :
  (exists l g k i e, run l graph0 = Some g /\ map_find 0 (nodeEdges g) = Some k /\ In i k /\ rd (edges g) i = Some e /\ isActive e = false) /\
  (exists l n, run (l ++ [ORemoveNodeEdges n]) graph0 = None).
Proof.
  split.
  - exists [OAddEdge (Edge 0 0 3) true], (addEdge graph0 (Edge 0 0 3) true), [0; 0], 0, (Edge 0 0 3). repeat split; try (vm_compute; reflexivity). left. reflexivity.
  - exists [OAddEdge (Edge 2 2 1) true], 2. vm_compute. reflexivity.
Qed.
Print Assumptions C36_bookkeeping_refuted.

Definition ops36 : list gop := [OAddNodeVal 5 7; OAddEdge (Edge 1 2 4) true; OAddEdge (Edge 2 3 1) true; OAddEdge (Edge 2 1 9) true; OAddEdge (Edge 3 0 2) true; ORemoveNodes 2 3; OAddEdge (Edge 3 2 6) true; ORemoveHigh 5; ORemoveNodeEdges 0].
Example C36_case : Forall loopless ops36 /\ Forall checked ops36 /\ exists g, run ops36 graph0 = Some g /\ live g 0 (Edge 1 2 4) /\ nodes g = [0; 1; 2; 3; 5] /\ nodeEdges g = [(0, []); (1, [0]); (2, [0]); (3, [])] /\ edgeNbr g = 4.
Proof. split; [|split]; [repeat constructor; cbn; lia|repeat constructor; reflexivity|]. eexists. split; [vm_compute; reflexivity|]. repeat split; cbn; try reflexivity; lia. Qed.

(** ** C37 *)

(** Missing for the full claim: nodes added by [addNode] that never had an edge. *)
Theorem C37_labelizeNodes_partial g turns fuel : good_graph g -> (forall n, In n (nodes g) -> In n (map fst (nodeEdges g))) -> (length (nodes g) < turns)%nat -> (length (nodes g) < fuel)%nat ->
  exists lookup, labelizeNodes turns fuel g = Some (Some lookup) /\
    (forall n, (exists l, map_find n lookup = Some l) <-> In n (nodes g)) /\
    (forall n l, map_find n lookup = Some l -> connected g n l /\ forall m, connected g n m -> l <= m) /\
    (forall a b la lb, map_find a lookup = Some la -> map_find b lookup = Some lb -> (la = lb <-> connected g a b)).
Proof.
  intros G HK Ht Hf. destruct (labelize_ok g G HK turns fuel Ht Hf) as (lookup & E & (_ & C)). exists lookup. split; [exact E|]. split; [|split].
  - intros n. destruct (C n) as (C1 & C2). split; [intros (l & El); apply (C1 l El)|]. intros Hn. specialize (C2 Hn). destruct (map_find n lookup) as [l|]; [eauto|contradiction].
  - intros n l El. apply (proj1 (C n)) in El. tauto.
  - intros a b la lb Ea Eb. apply (proj1 (C a)) in Ea as (_ & Ca & Ma). apply (proj1 (C b)) in Eb as (_ & Cb & Mb). split.
    + intros ->. eapply connected_trans; [exact Ca|apply connected_sym; exact Cb].
    + intros H. assert (la <= lb) by (apply Ma; eapply connected_trans; [exact H|exact Cb]). assert (lb <= la) by (apply Mb; eapply connected_trans; [apply connected_sym; exact H|exact Ca]). lia.
Qed.
Print Assumptions C37_labelizeNodes_partial.

(** False in general: with a node that never had an edge, an exception is thrown. *)
Theorem C37_labelizeNodes_refuted : exists g, run [OAddEdge (Edge 1 2 0) true; OAddNode 3] graph0 = Some g /\ good_graph g /\ forall turns fuel, (2 < turns)%nat -> (2 < fuel)%nat -> labelizeNodes turns fuel g = None.
Proof.
  eexists. split; [vm_compute; reflexivity|]. split.
  - destruct (history [OAddEdge (Edge 1 2 0) true; OAddNode 3] graph0) as (g & R & G & _); [repeat constructor; cbn; lia|apply graph0_good|intros i e (H & _); apply rd_In in H; destruct H|]. vm_compute in R. injection R as <-. exact G.
  - intros [|[|[|turns]]] [|[|[|fuel]]] H1 H2; try lia. reflexivity.
Qed.
Print Assumptions C37_labelizeNodes_refuted.

Definition ops37 : list gop := [OAddEdge (Edge 4 2 1) true; OAddEdge (Edge 2 7 1) true; OAddEdge (Edge 5 3 1) true; OAddEdge (Edge 7 5 8) true; ORemoveHigh 6].
Example C37_case : exists g, run ops37 graph0 = Some g /\ good_graph g /\ (forall n, In n (nodes g) -> In n (map fst (nodeEdges g))) /\ labelizeNodes 6 6 g = Some (Some [(2, 2); (3, 3); (4, 2); (5, 3); (7, 2)]).
Proof.
  destruct (history ops37 graph0) as (g & R & G & _); [repeat constructor; cbn; lia|apply graph0_good|intros i e (H & _); apply rd_In in H; destruct H|]. exists g. split; [exact R|]. split; [exact G|]. vm_compute in R. injection R as <-. split; [cbn; tauto|vm_compute; reflexivity].
Qed.

(** ** C38 *)

(** Whatever order the queue gives to edges of equal weight. *)
Theorem C38_graphMST g fuel pick : good_graph g -> (exists i e, live g i e) -> (forall i e, live g i e -> 0 <= wt e) -> legal_pick pick -> (2 * length (edges g) * length (nodes g) < fuel)%nat ->
  exists r m, graphMST fuel pick g = Some (Some m) /\ In r (map fst (nodeEdges g)) /\ (forall n, In n (map fst (nodeEdges g)) -> r <= n) /\
    of_graph g (edges m) /\ (forall n, connected g r n <-> linked (edges m) r n) /\ acyclic (edges m) /\ (forall S, spans g r S -> weight (edges m) <= weight S) /\
    (forall n, In n (nodes m) <-> exists i e, live m i e /\ touches e n) /\ nodeValues m = nodeValues g /\
    good_graph (Graph (edgeNbr m) (nodes m) [] (edges m) (nodeEdges m)).
Proof.
  intros G (i & e & L) HW HP Hf. destruct (graphMST_ok g fuel pick G) as (r & m & E & Hr & Hmin & Gm & Nv & ((Hof & Hsp) & Hac & Hopt) & Nd); auto.
  { pose proof G as (_ & _ & _ & _ & _ & G6 & _). intros E. specialize (G6 i e (src e) L (or_introl eq_refl)). rewrite E in G6. destruct G6. }
  exists r, m. split; [exact E|]. split; [exact Hr|]. split; [exact Hmin|]. split; [exact Hof|]. split; [|split; [exact Hac|split; [exact Hopt|split; [|split; [exact Nv|exact Gm]]]]].
  - intros n. split; [apply Hsp|]. induction 1 as [|b c f H IH Hf' J]; [constructor|]. destruct (Hof f Hf') as (j & Lj). eapply conn_step; eassumption.
  - intros n. rewrite Nd. split.
    + intros (f & Hf' & T). destruct (Hof f Hf') as (j & (_ & Lj)). apply In_rd in Hf' as (k & _ & Ek). exists k, f. split; [split; [exact Ek|exact Lj]|exact T].
    + intros (k & f & (Ek & _) & T). exists f. split; [eapply rd_In; exact Ek|exact T].
Qed.
Print Assumptions C38_graphMST.

(** A choice that is legal: the first of the lightest. *)
Fixpoint lightest (l : list edge) : nat :=
  match l with
  | [] => 0%nat
  | e :: l' => match nth_error l' (lightest l') with Some f => if wt f <? wt e then S (lightest l') else 0%nat | None => 0%nat end
  end.
Lemma lightest_legal : legal_pick (fun _ pq => lightest pq).
Proof.
  intros k pq. induction pq as [|e l IH]; [congruence|]. intros _. cbn [lightest]. destruct l as [|f l]; [exists e; split; [reflexivity|]; intros g [<-|[]]; unfold edge_lt; lia|].
  destruct IH as (x & Ex & Hx); [discriminate|]. rewrite Ex. destruct (wt x <? wt e) eqn:C.
  - exists x. split; [exact Ex|]. intros g [<-|Hg]; [unfold edge_lt; lia|apply Hx; exact Hg].
  - exists e. split; [reflexivity|]. intros g [<-|Hg]; [unfold edge_lt; lia|]. specialize (Hx g Hg). unfold edge_lt in *. lia.
Qed.
Definition ops38 : list gop := [OAddEdge (Edge 1 2 4) true; OAddEdge (Edge 2 3 1) true; OAddEdge (Edge 1 3 2) true; OAddEdge (Edge 3 4 7) true; OAddEdge (Edge 4 2 3) true; OAddEdge (Edge 8 9 1) true].
Example C38_case : exists g, run ops38 graph0 = Some g /\ good_graph g /\ (exists i e, live g i e) /\ (forall i e, live g i e -> 0 <= wt e) /\
  exists m, graphMST 100 (fun _ pq => lightest pq) g = Some (Some m) /\ edges m = [Edge 1 3 2; Edge 2 3 1; Edge 4 2 3] /\ nodes m = [1; 2; 3; 4].
Proof.
  destruct (history ops38 graph0) as (g & R & G & _); [repeat constructor; cbn; lia|apply graph0_good|intros i e (H & _); apply rd_In in H; destruct H|]. exists g. split; [exact R|]. split; [exact G|]. vm_compute in R. injection R as <-.
  split; [exists 0, (Edge 1 2 4); split; [reflexivity|cbn; lia]|]. split; [|eexists; split; [vm_compute; reflexivity|split; reflexivity]].
  intros i e (E & _). apply rd_In in E. cbn in E. repeat (destruct E as [<-|E]; [cbn; lia|]). destruct E.
Qed.

(** ** C58 *)

(** Missing for the full claim: graphs some edges of which were removed, or with nodes that no edge touches.  Without argument
    the weights decrease, with [reverse] they increase. *)
Theorem C58_sortEdges_partial sort g reverse : sorts sort -> (forall i e, rd (edges g) i = Some e -> live g i e) -> (forall n, In n (nodes g) -> exists i e, live g i e /\ touches e n) -> good_graph g ->
  let g' := sortEdges sort g reverse in
  good_graph g' /\ Permutation (edges g') (edges g) /\ nodes g' = nodes g /\ nodeValues g' = nodeValues g /\
  forall i j a b, rd (edges g') i = Some a -> rd (edges g') j = Some b -> i < j -> if reverse then wt a <= wt b else wt b <= wt a.
Proof.
  intros HS HL HN G g'. pose proof (sortEdges_ok sort g reverse HS HL) as H. cbv zeta in H. fold g' in H. destruct H as (P & So & Gs & Nv & Nd). clearbody g'.
  assert (En : nodes g' = nodes g).
  { destruct Gs as (_ & _ & I1 & _). destruct G as (_ & _ & I2 & _ & _ & G6 & G7 & _). cbn [nodes] in I1. apply sorted_ext; [exact I1|exact I2|]. intros n. rewrite Nd. split; [intros (i & e & L & T); apply G7; eapply G6; eassumption|apply HN]. }
  split; [|split; [exact P|split; [exact En|split; [exact Nv|]]]].
  - destruct Gs as (A1 & A2 & A3 & A4 & A5 & A6 & A7 & A8). destruct G as (_ & _ & _ & _ & B5 & _ & _ & B8). cbn [edges nodes nodeEdges nodeValues edgeNbr] in *. split; [exact A1|]. split; [exact A2|]. split; [exact A3|]. split; [exact A4|]. rewrite Nv, En. rewrite En in A7. auto 10.
  - revert So. generalize (edges g') as l. intros l. induction l as [|e l IH]; intros So i j a b Ea Eb Lt; [apply rd_In in Ea; destruct Ea|]. apply StronglySorted_inv in So as (So & F). rewrite Forall_forall in F.
    pose proof (rd_Some_range _ _ _ Ea). pose proof (rd_Some_range _ _ _ Eb). destruct (Z.eq_dec i 0) as [->|Ni].
    + cbn in Ea. injection Ea as <-. replace j with (j - 1 + 1) in Eb by lia. rewrite rd_cons_succ in Eb by lia. apply rd_In in Eb. apply (F b Eb).
    + replace i with (i - 1 + 1) in Ea by lia. replace j with (j - 1 + 1) in Eb by lia. rewrite rd_cons_succ in Ea, Eb by lia. apply (IH So (i - 1) (j - 1) a b Ea Eb). lia.
Qed.
Print Assumptions C58_sortEdges_partial.

(** False in general: sorting brings the removed edge back as an edge at node 0, which becomes a node, and loses node 5. *)
Theorem C58_sortEdges_refuted : exists g, run [OAddEdge (Edge 1 2 4) true; OAddEdge (Edge 2 3 1) true; OAddNode 5; ORemoveNodes 1 2] graph0 = Some g /\ good_graph g /\
  forall sort reverse, sorts sort -> let g' := sortEdges sort g reverse in ~ good_graph g' /\ In 0 (nodes g') /\ ~ In 0 (nodes g) /\ In 5 (nodes g) /\ ~ In 5 (nodes g') /\ exists i, In i (list_at g' 0).
Proof.
  set (ops := [OAddEdge (Edge 1 2 4) true; OAddEdge (Edge 2 3 1) true; OAddNode 5; ORemoveNodes 1 2]).
  destruct (history ops graph0) as (g & R & G & _); [repeat constructor; cbn; lia|apply graph0_good|intros i e (H & _); apply rd_In in H; destruct H|]. exists g. split; [exact R|]. split; [exact G|]. vm_compute in R. injection R as <-. clear G ops.
  intros sort reverse HS.
  unfold sortEdges. cbn [edges]. set (es := [Edge 0 0 4; Edge 2 3 1]).
  set (l := if reverse then rev (sort edge_lt (rev es)) else sort edge_lt es).
  assert (P : Permutation es l). { unfold l. symmetry. destruct reverse; [|apply HS]. etransitivity; [symmetry; apply Permutation_rev|]. etransitivity; [apply HS|]. symmetry. apply Permutation_rev. }
  clearbody l. unfold es in P. apply Permutation_length_2_inv in P as [->| ->]; cbv zeta;
    (match goal with |- ~ good_graph ?x /\ _ => let y := eval vm_compute in x in change x with y end; split; [intros (_ & Q & _); specialize (Q 0); vm_compute in Q; discriminate|]; cbn; repeat split; try tauto; try lia; eexists; left; reflexivity).
Qed.
Print Assumptions C58_sortEdges_refuted.

Fixpoint insert_ex (lt : edge -> edge -> bool) (e : edge) (l : list edge) : list edge :=
  match l with [] => [e] | f :: l' => if lt f e then f :: insert_ex lt e l' else e :: l end.
Definition sort_ex (lt : edge -> edge -> bool) (l : list edge) : list edge := fold_right (insert_ex lt) [] l.
Lemma sort_ex_sorts : sorts sort_ex.
Proof.
  assert (P : forall e l, Permutation (insert_ex edge_lt e l) (e :: l)).
  { intros e. induction l as [|f l IH]; cbn; [reflexivity|]. destruct (edge_lt f e); [|reflexivity]. rewrite IH. constructor. }
  intros l. split.
  - induction l as [|e l IH]; [reflexivity|]. change (Permutation (insert_ex edge_lt e (sort_ex edge_lt l)) (e :: l)). rewrite P, IH. reflexivity.
  - induction l as [|e l IH]; [constructor|]. change (sorted_by edge_lt (insert_ex edge_lt e (sort_ex edge_lt l))). revert IH. generalize (sort_ex edge_lt l) as q. induction q as [|f q IHq]; intros H; cbn; [repeat constructor|].
    apply StronglySorted_inv in H as (H & F). destruct (edge_lt f e) eqn:E.
    + constructor; [apply IHq; exact H|]. rewrite Forall_forall in *. intros x Hx. apply (Permutation_in _ (P e q)) in Hx as [<-|Hx]; [unfold edge_lt in *; lia|apply F; exact Hx].
    + constructor; [constructor; assumption|]. constructor; [exact E|]. rewrite Forall_forall in *. intros x Hx. specialize (F x Hx). cbn in F. unfold edge_lt in *. lia.
Qed.
Example C58_case : sorts sort_ex /\ exists g, run ops38 graph0 = Some g /\ good_graph g /\ (forall i e, rd (edges g) i = Some e -> live g i e) /\ (forall n, In n (nodes g) -> exists i e, live g i e /\ touches e n) /\
  map wt (edges (sortEdges sort_ex g false)) = [7; 4; 3; 2; 1; 1] /\ map wt (edges (sortEdges sort_ex g true)) = [1; 1; 2; 3; 4; 7].
Proof.
  split; [apply sort_ex_sorts|].
  destruct (history ops38 graph0) as (g & R & G & _); [repeat constructor; cbn; lia|apply graph0_good|intros i e (H & _); apply rd_In in H; destruct H|]. exists g. split; [exact R|]. split; [exact G|]. vm_compute in R. injection R as <-.
  split; [|split].
  - intros i e E. split; [exact E|]. apply rd_In in E. cbn in E. repeat (destruct E as [<-|E]; [cbn; lia|]). destruct E.
  - intros n Hn. cbn [nodes In] in Hn. repeat (destruct Hn as [<-|Hn]; [first [exists 0; eexists; split; [split; [reflexivity|cbn; lia]|unfold touches; cbn; lia]|exists 1; eexists; split; [split; [reflexivity|cbn; lia]|unfold touches; cbn; lia]|exists 3; eexists; split; [split; [reflexivity|cbn; lia]|unfold touches; cbn; lia]|exists 5; eexists; split; [split; [reflexivity|cbn; lia]|unfold touches; cbn; lia]]|]). destruct Hn.
  - split; vm_compute; reflexivity.
Qed.

(** ** C59 *)

(** What [addEdge] does with an edge that exists: nothing, whatever the weights. *)
Theorem C59_addEdge_existing_partial g e i f : live g i f -> joins f (src e) (tgt e) -> addEdge g e true = g.
Proof.
  intros L J. destruct (Z.eq_dec (src e) 0) as [E0|N0]; [destruct (Z.eq_dec (tgt e) 0) as [E1|N1]|].
  - exfalso. apply L. unfold joins in J. lia.
  - destruct (addEdge_meant g e true) as [(_ & H)|(H & _)]; [lia|exact H|]. exfalso. apply H. split; [reflexivity|]. exists i, f. auto.
  - destruct (addEdge_meant g e true) as [(_ & H)|(H & _)]; [lia|exact H|]. exfalso. apply H. split; [reflexivity|]. exists i, f. auto.
Qed.
Print Assumptions C59_addEdge_existing_partial.
(** The documented minimum of both weights is therefore not kept when the new weight is smaller. *)
Theorem C59_addEdge_minimum_refuted g e i f : live g i f -> joins f (src e) (tgt e) -> wt e < wt f -> simple g -> ~ exists j f', live (addEdge g e true) j f' /\ joins f' (src e) (tgt e) /\ wt f' = Z.min (wt e) (wt f).
Proof.
  intros L J Lt Si (j & f' & L' & J' & W). rewrite (C59_addEdge_existing_partial g e i f L J) in L'. assert (i = j) by (eapply Si; eassumption). subst j. assert (f = f') by (eapply live_fun; eassumption). subst f'. lia.
Qed.
Print Assumptions C59_addEdge_minimum_refuted.
Example C59_case : exists g, run [OAddEdge (Edge 1 2 4) true] graph0 = Some g /\ live g 0 (Edge 1 2 4) /\ joins (Edge 1 2 4) 2 1 /\ addEdge g (Edge 2 1 3) true = g.
Proof. eexists. split; [vm_compute; reflexivity|]. split; [split; [reflexivity|cbn; lia]|]. split; [right; auto|vm_compute; reflexivity]. Qed.
