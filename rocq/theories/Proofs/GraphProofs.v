(** Bookkeeping of the graphs. *)
From Verif Require Export Spec.GraphSpec Proofs.GeodesicProofs.

(** ** Sets and maps *)
Lemma set_insert_In x l y : In y (set_insert x l) <-> y = x \/ In y l.
Proof.
  induction l as [|a l IH]; cbn; [intuition congruence|]. destruct (Z.ltb_spec x a); [cbn; intuition congruence|]. destruct (Z.eqb_spec x a); [subst; cbn; intuition congruence|]. cbn. rewrite IH. intuition congruence.
Qed.
Lemma set_insert_sorted x l : increasing l -> increasing (set_insert x l).
Proof.
  unfold increasing. induction 1 as [|a l H IH F]; cbn; [repeat constructor|]. destruct (Z.ltb_spec x a) as [L|L].
  - constructor; [constructor; assumption|]. constructor; [exact L|]. eapply Forall_impl; [|exact F]. intros; lia.
  - destruct (Z.eqb_spec x a); [constructor; assumption|]. constructor; [exact IH|]. apply Forall_forall. intros y Hy. apply set_insert_In in Hy as [->|Hy]; [lia|]. rewrite Forall_forall in F. apply F. exact Hy.
Qed.
Lemma set_mem_In x l : set_mem x l = true <-> In x l.
Proof. unfold set_mem. rewrite existsb_exists. split; [intros (y & H & E%Z.eqb_eq); subst; exact H|intros H; exists x; split; [exact H|apply Z.eqb_refl]]. Qed.
Lemma set_erase_In x l y : In y (set_erase x l) <-> In y l /\ y <> x.
Proof. unfold set_erase. rewrite filter_In. destruct (Z.eqb_spec y x); cbn; intuition congruence. Qed.
Lemma set_erase_sorted x l : increasing l -> increasing (set_erase x l).
Proof.
  unfold increasing, set_erase. induction 1 as [|a l H IH F]; cbn; [constructor|]. destruct (negb (a =? x)); [|exact IH]. constructor; [exact IH|]. apply Forall_forall. intros y Hy. apply filter_In in Hy as (Hy & _).
  rewrite Forall_forall in F. apply F. exact Hy.
Qed.
Lemma map_find_set {A} k k' (v : A) m : map_find k (map_set k' v m) = if k =? k' then Some v else map_find k m.
Proof.
  induction m as [|(a, b) m IH]; cbn.
  - destruct (Z.eqb_spec k' k), (Z.eqb_spec k k'); congruence.
  - destruct (Z.ltb_spec k' a); cbn; [destruct (Z.eqb_spec k' k), (Z.eqb_spec k k'); congruence|]. destruct (Z.eqb_spec k' a) as [->|]; cbn.
    + destruct (Z.eqb_spec a k), (Z.eqb_spec k a); congruence.
    + rewrite IH. destruct (Z.eqb_spec a k), (Z.eqb_spec k k'); congruence.
Qed.
Lemma map_set_keys {A} k (v : A) m : map fst (map_set k v m) = set_insert k (map fst m).
Proof. induction m as [|(a, b) m IH]; cbn; [reflexivity|]. destruct (k <? a); [reflexivity|]. destruct (Z.eqb_spec k a); cbn; [subst; reflexivity|]. rewrite IH. reflexivity. Qed.
Lemma map_find_keys {A} k (m : list (Z * A)) : map_find k m <> None <-> In k (map fst m).
Proof. induction m as [|(a, b) m IH]; cbn; [intuition congruence|]. destruct (Z.eqb_spec a k); [subst; intuition congruence|]. rewrite IH. intuition congruence. Qed.
Lemma set_insert_id x l : increasing l -> In x l -> set_insert x l = l.
Proof.
  unfold increasing. induction 1 as [|a l H IH F]; cbn; [intros []|]. intros [->|Hx]; [rewrite Z.ltb_irrefl, Z.eqb_refl; reflexivity|].
  rewrite Forall_forall in F. pose proof (F x Hx). destruct (Z.ltb_spec x a); [lia|]. destruct (Z.eqb_spec x a); [reflexivity|]. f_equal. apply IH. exact Hx.
Qed.
Lemma increasing_NoDup l : increasing l -> NoDup l.
Proof. unfold increasing. induction 1 as [|a l H IH F]; constructor; [|exact IH]. intros Hi. rewrite Forall_forall in F. pose proof (F a Hi). lia. Qed.

(** ** Erasing *)
Lemma iter_succ_r {A} (f : A -> A) k a : Nat.iter (S k) f a = Nat.iter k f (f a).
Proof. induction k as [|k IH]; [reflexivity|]. cbn in *. f_equal. exact IH. Qed.
Lemma flat_map_ext_in {A B} (f g : A -> list B) l : (forall a, In a l -> f a = g a) -> flat_map f l = flat_map g l.
Proof. induction l as [|a l IH]; intros H; cbn; [reflexivity|]. rewrite (H a) by (left; reflexivity). f_equal. apply IH. intros b Hb. apply H. right. exact Hb. Qed.
Lemma erase1_notin i l : ~ In i l -> erase1 i l = l.
Proof. induction l as [|a l IH]; cbn; [reflexivity|]. intros H. destruct (Z.eqb_spec a i); [exfalso; auto|]. f_equal. apply IH. auto. Qed.
Lemma erase1_filter i l : set_erase i (erase1 i l) = set_erase i l.
Proof. unfold set_erase. induction l as [|a l IH]; cbn; [reflexivity|]. destruct (Z.eqb_spec a i); cbn; [reflexivity|]. destruct (Z.eqb_spec a i); [contradiction|]. cbn. f_equal. exact IH. Qed.
Lemma erase1_count i l : count_occ Z.eq_dec (erase1 i l) i = (count_occ Z.eq_dec l i - 1)%nat.
Proof. induction l as [|a l IH]; cbn; [reflexivity|]. destruct (Z.eqb_spec a i); [destruct (Z.eq_dec a i); [lia|contradiction]|]. cbn. destruct (Z.eq_dec a i); [contradiction|]. exact IH. Qed.
Lemma set_erase_notin i l : ~ In i l -> set_erase i l = l.
Proof. unfold set_erase. induction l as [|a l IH]; cbn; [reflexivity|]. intros H. destruct (Z.eqb_spec a i); [exfalso; auto|]. cbn. f_equal. apply IH. auto. Qed.
Lemma erase_iter i k l : count_occ Z.eq_dec l i = k -> Nat.iter k (erase1 i) l = set_erase i l.
Proof.
  revert l. induction k as [|k IH]; intros l H.
  - cbn. symmetry. apply set_erase_notin. apply (count_occ_not_In Z.eq_dec). exact H.
  - rewrite iter_succ_r. rewrite IH; [apply erase1_filter|]. rewrite erase1_count. lia.
Qed.

(** ** The lists *)
Lemma list_at_set g es n m l k : list_at (with_edges g es (map_set n l m)) k = if k =? n then l else match map_find k m with Some l' => l' | None => [] end.
Proof. unfold list_at, with_edges. cbn [nodeEdges]. rewrite map_find_set. destruct (k =? n); reflexivity. Qed.
Definition lat (m : list (Z * list Z)) (n : Z) : list Z := match map_find n m with Some l => l | None => [] end.
Lemma lat_push n i m k : lat (push_edge n i m) k = if k =? n then lat m n ++ [i] else lat m k.
Proof. unfold lat, push_edge. rewrite map_find_set. destruct (k =? n); reflexivity. Qed.
Lemma lat_remove n i m k : lat (removeNodeEdge n i m) k = if k =? n then erase1 i (lat m n) else lat m k.
Proof.
  unfold lat, removeNodeEdge. destruct (map_find n m) as [l|] eqn:E; [rewrite map_find_set; destruct (k =? n); reflexivity|]. destruct (Z.eqb_spec k n); [subst; rewrite E; reflexivity|reflexivity].
Qed.
Lemma remove_keys n i m : increasing (map fst m) -> map fst (removeNodeEdge n i m) = map fst m.
Proof.
  intros H. unfold removeNodeEdge. destruct (map_find n m) eqn:E; [|reflexivity]. rewrite map_set_keys. apply set_insert_id; [exact H|]. apply map_find_keys. congruence.
Qed.

Lemma edges_at_In n es i : In i (edges_at n es) <-> exists e, rd es i = Some e /\ isActive e = true /\ touches e n.
Proof.
  unfold edges_at. rewrite in_flat_map. split.
  - intros (j & Hj & Hi). destruct (rd es j) as [e|] eqn:E; [|destruct Hi]. apply repeat_spec in Hi as Eq. subst j. exists e. split; [exact E|]. unfold ends_at in Hi. destruct (isActive e); [|destruct Hi]. split; [reflexivity|].
    unfold touches. destruct (Z.eqb_spec (src e) n); [auto|]. destruct (Z.eqb_spec (tgt e) n); [auto|]. destruct Hi.
  - intros (e & E & Ha & Ht). exists i. split; [apply zseq_In; eapply rd_Some_range; exact E|]. rewrite E. unfold ends_at. rewrite Ha. destruct Ht as [->| ->]; rewrite Z.eqb_refl; [left; reflexivity|]. destruct (src e =? n); left; reflexivity.
Qed.
Lemma rd_app_l {A} (l r : list A) i v : rd l i = Some v -> rd (l ++ r) i = Some v.
Proof. intros H. rewrite rd_app. pose proof (rd_Some_range _ _ _ H). destruct (Z.ltb_spec i (Z.of_nat (length l))); [exact H|lia]. Qed.
Lemma rd_last {A} (l : list A) v : rd (l ++ [v]) (Z.of_nat (length l)) = Some v.
Proof. rewrite rd_app. destruct (Z.ltb_spec (Z.of_nat (length l)) (Z.of_nat (length l))); [lia|]. rewrite Z.sub_diag. reflexivity. Qed.
Lemma rd_app_inv {A} (l : list A) v i w : rd (l ++ [v]) i = Some w -> rd l i = Some w \/ (i = Z.of_nat (length l) /\ w = v).
Proof.
  intros E. pose proof (rd_Some_range _ _ _ E) as R. rewrite app_length in R. cbn in R. rewrite rd_app in E. destruct (Z.ltb_spec i (Z.of_nat (length l))); [left; exact E|right].
  replace i with (Z.of_nat (length l)) in * by lia. rewrite Z.sub_diag in E. cbn in E. split; [reflexivity|congruence].
Qed.
Lemma edges_at_app n es e : edges_at n (es ++ [e]) = edges_at n es ++ repeat (Z.of_nat (length es)) (ends_at n e).
Proof.
  unfold edges_at. rewrite app_length. cbn [length]. replace (Z.of_nat (length es + 1)) with (Z.of_nat (length es) + 1) by lia. rewrite zseq_succ by lia. rewrite flat_map_app. cbn [flat_map]. rewrite rd_last, app_nil_r. f_equal.
  apply flat_map_ext_in. intros i Hi. apply zseq_In in Hi. destruct (rd_in_range es i Hi) as (x & E). rewrite E, (rd_app_l _ _ _ _ E). reflexivity.
Qed.

Definition ends (n : Z) (es : list edge) (i : Z) : nat := match rd es i with Some e => ends_at n e | None => 0%nat end.
Lemma edges_at_ends n es : edges_at n es = flat_map (fun i => repeat i (ends n es i)) (zseq (Z.of_nat (length es))).
Proof. apply flat_map_ext_in. intros i _. unfold ends. destruct (rd es i); reflexivity. Qed.
Lemma count_repeat i j k : count_occ Z.eq_dec (repeat j k) i = if Z.eq_dec j i then k else 0%nat.
Proof. induction k as [|k IH]; cbn; [destruct (Z.eq_dec j i); reflexivity|]. rewrite IH. destruct (Z.eq_dec j i); reflexivity. Qed.
Lemma count_flat (c : Z -> nat) i l : NoDup l -> count_occ Z.eq_dec (flat_map (fun j => repeat j (c j)) l) i = if in_dec Z.eq_dec i l then c i else 0%nat.
Proof.
  induction 1 as [|a l Ha H IH]; [reflexivity|]. cbn [flat_map]. rewrite count_occ_app, count_repeat, IH. destruct (Z.eq_dec a i) as [->|N].
  - destruct (in_dec Z.eq_dec i l); [contradiction|]. destruct (in_dec Z.eq_dec i (i :: l)) as [|X]; [lia|]. exfalso. apply X. left. reflexivity.
  - destruct (in_dec Z.eq_dec i l) as [Hi|Hi], (in_dec Z.eq_dec i (a :: l)) as [Hi'|Hi']; try reflexivity; exfalso; cbn in *; tauto.
Qed.
Lemma count_edges n es i : count_occ Z.eq_dec (edges_at n es) i = ends n es i.
Proof.
  rewrite edges_at_ends, count_flat by apply zseq_NoDup. destruct (in_dec Z.eq_dec i (zseq (Z.of_nat (length es)))) as [|N]; [reflexivity|]. unfold ends. rewrite rd_out; [reflexivity|]. intros H. apply N. apply zseq_In. exact H.
Qed.
Lemma set_erase_app i l r : set_erase i (l ++ r) = set_erase i l ++ set_erase i r.
Proof. apply filter_app. Qed.
Lemma set_erase_repeat i j k : set_erase i (repeat j k) = if j =? i then [] else repeat j k.
Proof. unfold set_erase. induction k as [|k IH]; cbn; [destruct (j =? i); reflexivity|]. rewrite IH. destruct (j =? i); reflexivity. Qed.
Lemma edges_at_upd n es i e : rd es i = Some e -> edges_at n (upd es i (desactivate e)) = set_erase i (edges_at n es).
Proof.
  intros E. rewrite !edges_at_ends, upd_length. pose proof (rd_Some_range _ _ _ E) as Hr. generalize (zseq (Z.of_nat (length es))) as l. intros l. induction l as [|j l IH]; [reflexivity|]. cbn [flat_map]. rewrite set_erase_app, IH, set_erase_repeat. f_equal.
  unfold ends. rewrite rd_upd. destruct (Z.eqb_spec j i) as [->|N].
  - rewrite Z.eqb_refl. replace (0 <=? i) with true by lia. replace (i <? _) with true by lia. reflexivity.
  - destruct (Z.eqb_spec i j); [congruence|]. reflexivity.
Qed.

(** ** Operations *)
Lemma active_live e : isActive e = true <-> ~ (src e = 0 /\ tgt e = 0).
Proof. unfold isActive. destruct (Z.eqb_spec (src e) 0), (Z.eqb_spec (tgt e) 0); cbn; intuition congruence. Qed.
Lemma edge_eq_joins a b : edge_eq a b = true <-> joins a (src b) (tgt b).
Proof. unfold edge_eq, joins. rewrite orb_true_iff, !andb_true_iff, !Z.eqb_eq. intuition congruence. Qed.
Lemma lat_at g n : list_at g n = lat (nodeEdges g) n. Proof. reflexivity. Qed.

Lemma rd_cons_succ {A} (a : A) l k : 0 <= k -> rd (a :: l) (k + 1) = rd l k.
Proof. intros H. unfold rd. replace (0 <=? k + 1) with true by lia. replace (0 <=? k) with true by lia. replace (Z.to_nat (k + 1)) with (S (Z.to_nat k)) by lia. reflexivity. Qed.
Lemma find_from_spec e l : forall i, find_from i e l = -1 /\ (forall a, In a l -> ~ joins a (src e) (tgt e)) \/
  exists k a, find_from i e l = i + k /\ rd l k = Some a /\ joins a (src e) (tgt e) /\ forall j b, rd l j = Some b -> joins b (src e) (tgt e) -> k <= j.
Proof.
  induction l as [|a l IH]; intros i; cbn [find_from]; [left; split; [reflexivity|intros a []]|]. destruct (edge_eq a e) eqn:E.
  - right. exists 0, a. split; [lia|]. split; [reflexivity|]. split; [apply edge_eq_joins; exact E|]. intros j b H _. apply rd_Some_range in H. lia.
  - assert (N : ~ joins a (src e) (tgt e)) by (rewrite <- edge_eq_joins; congruence). destruct (IH (i + 1)) as [(F & H)|(k & x & F & H1 & H2 & H3)].
    + left. split; [exact F|]. intros b [<-|Hb]; [exact N|apply H; exact Hb].
    + right. exists (k + 1), x. split; [lia|]. pose proof (rd_Some_range _ _ _ H1). split; [rewrite rd_cons_succ by lia; exact H1|]. split; [exact H2|]. intros j b Hj Hb. pose proof (rd_Some_range _ _ _ Hj).
      destruct (Z.eq_dec j 0) as [->|]; [cbn in Hj; injection Hj as <-; contradiction|]. replace j with ((j - 1) + 1) in Hj by lia. rewrite rd_cons_succ in Hj by lia. specialize (H3 _ _ Hj Hb). lia.
Qed.

(** The first edge that joins the nodes of [e], if any is left. *)
Lemma findEdge_spec g e : ~ (src e = 0 /\ tgt e = 0) -> (findEdge g e = -1 /\ forall i f, live g i f -> ~ joins f (src e) (tgt e)) \/
  exists a, live g (findEdge g e) a /\ joins a (src e) (tgt e) /\ forall j b, live g j b -> joins b (src e) (tgt e) -> findEdge g e <= j.
Proof.
  intros Ne. unfold findEdge. destruct (find_from_spec e (edges g) 0) as [(F & H)|(k & a & F & H1 & H2 & H3)].
  - left. split; [exact F|]. intros i f (Hf & _). apply H. eapply rd_In. exact Hf.
  - right. exists a. rewrite F. split; [split; [exact H1|]; intros (A & B); apply Ne; destruct H2 as [(? & ?)|(? & ?)]; split; congruence|]. split; [exact H2|]. intros j b (Hb & _) Jb. pose proof (H3 _ _ Hb Jb). lia.
Qed.

Lemma graph0_good : good_graph graph0.
Proof.
  split; [reflexivity|]. split; [reflexivity|]. repeat (split; [constructor|]). split; [|split; intros x []]. intros i e n (H & _). apply rd_In in H. destruct H.
Qed.

Lemma addNode_good g n : good_graph g -> good_graph (addNode g n).
Proof.
  intros (G1 & G2 & G3 & G4 & G5 & G6 & G7 & G8). repeat (split; [first [assumption|apply set_insert_sorted; assumption]|]). split; intros x Hx; cbn in *; apply set_insert_In; right; auto.
Qed.
Lemma addNode_val_good g n v : good_graph g -> good_graph (addNode_val g n v).
Proof.
  intros (G1 & G2 & G3 & G4 & G5 & G6 & G7 & G8). unfold addNode_val. split; [exact G1|]. split; [exact G2|]. cbn [nodes nodeEdges nodeValues edges]. split; [apply set_insert_sorted; exact G3|]. split; [exact G4|].
  split; [rewrite map_set_keys; apply set_insert_sorted; exact G5|]. split; [exact G6|]. split; intros x Hx; apply set_insert_In; [right; auto|]. rewrite map_set_keys in Hx. apply set_insert_In in Hx as [->|Hx]; auto.
Qed.

Lemma live_app g e i f m ns vs k : ~ (src e = 0 /\ tgt e = 0) -> live (Graph k ns vs (edges g ++ [e]) m) i f <-> live g i f \/ (i = Z.of_nat (length (edges g)) /\ f = e).
Proof.
  intros Ne. unfold live. cbn [edges]. split.
  - intros (H & N). apply rd_app_inv in H as [H|(-> & ->)]; auto.
  - intros [(H & N)|(-> & ->)]; [split; [apply rd_app_l; exact H|exact N]|split; [apply rd_last|exact Ne]].
Qed.

(** The new edge, when it is added. *)
Lemma addEdge_new g e : good_graph g -> ~ (src e = 0 /\ tgt e = 0) -> good_graph (addEdge g e false).
Proof.
  intros (G1 & G2 & G3 & G4 & G5 & G6 & G7 & G8) Ne. unfold addEdge. cbn [andb]. repeat split; cbn [edgeNbr nodes nodeValues edges nodeEdges].
  - rewrite app_length. cbn. lia.
  - intros n. rewrite lat_at. cbn [nodeEdges]. rewrite !lat_push, edges_at_app, <- !lat_at, !G2, <- G1. unfold ends_at. assert (isActive e = true) as -> by (apply active_live; exact Ne).
    destruct (Z.eqb_spec (src e) n) as [->|N1], (Z.eqb_spec (tgt e) n) as [E2|N2]; rewrite ?E2, ?Z.eqb_refl; cbn [Nat.add repeat].
    + rewrite <- app_assoc. reflexivity.
    + destruct (Z.eqb_spec n (tgt e)); [congruence|]. reflexivity.
    + destruct (Z.eqb_spec n (src e)); [congruence|]. reflexivity.
    + destruct (Z.eqb_spec n (src e)); [congruence|]. destruct (Z.eqb_spec n (tgt e)); [congruence|]. rewrite app_nil_r. reflexivity.
  - apply set_insert_sorted, set_insert_sorted. exact G3.
  - unfold push_edge. rewrite !map_set_keys. apply set_insert_sorted, set_insert_sorted. exact G4.
  - exact G5.
  - intros i f n Hl Ht. unfold push_edge. rewrite !map_set_keys, !set_insert_In. apply live_app in Hl as [Hl|(-> & ->)]; [right; right; eapply G6; eassumption| |exact Ne]. destruct Ht; subst; auto.
  - unfold push_edge. rewrite !map_set_keys. intros x Hx. rewrite !set_insert_In in *. destruct Hx as [|[|Hx]]; auto.
  - intros x Hx. rewrite !set_insert_In. right; right. apply G8. exact Hx.
Qed.
Lemma addEdge_good g e c : good_graph g -> ~ (src e = 0 /\ tgt e = 0) -> good_graph (addEdge g e c).
Proof.
  intros G Ne. pose proof (addEdge_new g e G Ne) as H. unfold addEdge in *. destruct (c && negb (findEdge g e =? -1)); [exact G|exact H].
Qed.
Lemma addEdge_meant g e c : ~ (src e = 0 /\ tgt e = 0) -> meant g (OAddEdge e c) (addEdge g e c).
Proof.
  intros Ne. cbn [meant]. unfold addEdge. destruct (findEdge_spec g e Ne) as [(F & H)|(a & H1 & H2 & H3)].
  - rewrite F. cbn [Z.eqb negb]. rewrite andb_false_r. right. split; [intros (_ & i & f & Hl & Hj); exact (H i f Hl Hj)|]. split; [|intros; apply live_app; exact Ne].
    intros m. cbn [nodes]. rewrite !set_insert_In. unfold touches. intuition congruence.
  - destruct H1 as (R1 & N1) eqn:X. pose proof (rd_Some_range _ _ _ R1). destruct (Z.eqb_spec (findEdge g e) (-1)); [lia|]. cbn [negb]. rewrite andb_true_r. destruct c.
    + left. split; [|reflexivity]. split; [reflexivity|]. exists (findEdge g e), a. auto.
    + right. split; [intros (D & _); discriminate|]. split; [|intros; apply live_app; exact Ne]. intros m. cbn [nodes]. rewrite !set_insert_In. unfold touches. intuition congruence.
Qed.

(** Removing edge [i] from the lists and from the edges. *)
Lemma live_upd g es m i e j f : rd (edges g) i = Some e -> es = upd (edges g) i (desactivate e) -> live (with_edges g es m) j f <-> live g j f /\ j <> i.
Proof.
  intros E ->. unfold live, with_edges. cbn [edges]. rewrite rd_upd. pose proof (rd_Some_range _ _ _ E). destruct (Z.eqb_spec i j) as [<-|N].
  - replace (0 <=? i) with true by lia. replace (i <? _) with true by lia. cbn [andb]. split; [|intuition]. intros (Q & N). injection Q as <-. exfalso. apply N. split; reflexivity.
  - cbn [andb]. intuition congruence.
Qed.
Lemma removeEdge_ok g i : good_graph g -> good_graph (removeEdge g i) /\ meant g (ORemoveEdge i) (removeEdge g i) /\ nodeValues (removeEdge g i) = nodeValues g /\ length (edges (removeEdge g i)) = length (edges g) /\
  forall j, j <> i -> rd (edges (removeEdge g i)) j = rd (edges g) j.
Proof.
  intros G. pose proof G as (G1 & G2 & G3 & G4 & G5 & G6 & G7 & G8). unfold removeEdge. destruct (rd (edges g) i) as [e|] eqn:E.
  2:{ split; [exact G|]. split; [|auto]. split; [|reflexivity]. intros j f. split; [|intuition]. intros Hl. split; [exact Hl|]. intros ->. destruct Hl. congruence. }
  split; [|split; [split; [|reflexivity]|]].
  - repeat split; cbn [edgeNbr nodes nodeValues edges nodeEdges with_edges].
    + rewrite upd_length. exact G1.
    + intros n. rewrite lat_at. cbn [nodeEdges with_edges]. rewrite (edges_at_upd n _ _ _ E). rewrite !lat_remove, <- !lat_at, !G2. pose proof (count_edges n (edges g) i) as C. unfold ends in C. rewrite E in C. unfold ends_at in C.
      destruct (isActive e) eqn:A.
      * rewrite (Z.eqb_sym n (tgt e)), (Z.eqb_sym n (src e)). destruct (Z.eqb_spec (src e) n) as [E1|N1], (Z.eqb_spec (tgt e) n) as [E2|N2]; cbn [Nat.add] in C; rewrite ?E1, ?E2.
        -- rewrite Z.eqb_refl. apply (erase_iter i 2 _ C).
        -- apply (erase_iter i 1 _ C).
        -- destruct (Z.eqb_spec n (src e)); [congruence|]. apply (erase_iter i 1 _ C).
        -- apply (erase_iter i 0 _ C).
      * assert (K : forall k, ~ In i (edges_at k (edges g))). { intros k Hk. apply edges_at_In in Hk as (e' & E' & A' & _). congruence. }
        rewrite (set_erase_notin i) by apply K. assert (K' : forall k, erase1 i (edges_at k (edges g)) = edges_at k (edges g)) by (intros; apply erase1_notin; apply K).
        repeat (match goal with |- context [?a =? ?b] => destruct (Z.eqb_spec a b) end); rewrite ?K'; congruence.
    + exact G3.
    + rewrite !remove_keys; [exact G4|exact G4|rewrite remove_keys; exact G4].
    + exact G5.
    + intros j f n Hl Ht. rewrite !remove_keys; [|exact G4|rewrite remove_keys; exact G4]. apply (live_upd g _ _ i e) in Hl as (Hl & _); [|exact E|reflexivity]. eapply G6; eassumption.
    + rewrite !remove_keys; [exact G7|exact G4|rewrite remove_keys; exact G4].
    + exact G8.
  - intros j f. apply (live_upd g _ _ i e); [exact E|reflexivity].
  - split; [reflexivity|]. split; [apply upd_length|]. intros j Nj. cbn [edges with_edges]. rewrite rd_upd. destruct (Z.eqb_spec i j); [congruence|reflexivity].
Qed.

Lemma keeps_id (P : Z -> edge -> Prop) g : (forall i e, live g i e -> ~ P i e) -> keeps P g g.
Proof. intros H i e. split; [intros L; split; [exact L|apply H; exact L]|intros (L & _); exact L]. Qed.

Lemma removeFind_ok g e : good_graph g -> good_graph (removeEdge_find g e) /\ meant g (ORemoveFind e) (removeEdge_find g e) /\ nodeValues (removeEdge_find g e) = nodeValues g.
Proof.
  intros G. unfold removeEdge_find. destruct (Z.eq_dec (src e) 0) as [Ea|Na]; [destruct (Z.eq_dec (tgt e) 0) as [Eb|Nb]|].
  - assert (K : forall i f, live g i f -> ~ joins f (src e) (tgt e)). { intros i f (_ & N) J. apply N. destruct J as [(? & ?)|(? & ?)]; split; congruence. }
    destruct (Z.eqb_spec (findEdge g e) (-1)) as [|N]; [split; [exact G|]; split; [|reflexivity]; split; [|reflexivity]; apply keeps_id; intros i f L (J & _); exact (K _ _ L J)|].
    destruct (removeEdge_ok g (findEdge g e) G) as (G' & (M & Nd) & V & _). split; [exact G'|]. split; [split; [|exact Nd]|exact V]. intros i f. rewrite (M i f). split; intros (L & H); (split; [exact L|]).
    + intros (J & _). exact (K _ _ L J).
    + intros ->. unfold findEdge in *. destruct (find_from_spec e (edges g) 0) as [(F & _)|(k & a & F & R & J & _)]; [congruence|]. destruct L as (L & N0). rewrite F in L. cbn in L. rewrite R in L. injection L as ->. apply N0. destruct J as [(? & ?)|(? & ?)]; split; congruence.
  - destruct (findEdge_spec g e) as [(F & H)|(a & H1 & H2 & H3)]; [tauto| |].
    + rewrite F. cbn [Z.eqb]. split; [exact G|]. split; [|reflexivity]. split; [|reflexivity]. apply keeps_id. intros i f L (J & _). exact (H _ _ L J).
    + pose proof H1 as (R1 & _). pose proof (rd_Some_range _ _ _ R1). destruct (Z.eqb_spec (findEdge g e) (-1)); [lia|]. destruct (removeEdge_ok g (findEdge g e) G) as (G' & (M & Nd) & V & _). split; [exact G'|]. split; [split; [|exact Nd]|exact V].
      intros i f. rewrite (M i f). split; intros (L & Hn); (split; [exact L|]).
      * intros (J & Lm). apply Hn. pose proof (Lm _ _ H1 H2). pose proof (H3 _ _ L J). lia.
      * intros ->. apply Hn. destruct H1 as (R & _), L as (R' & _). rewrite R in R'. injection R' as <-. split; [exact H2|]. intros k b Hk Jb. exact (H3 _ _ Hk Jb).
  - destruct (findEdge_spec g e) as [(F & H)|(a & H1 & H2 & H3)]; [tauto| |].
    + rewrite F. cbn [Z.eqb]. split; [exact G|]. split; [|reflexivity]. split; [|reflexivity]. apply keeps_id. intros i f L (J & _). exact (H _ _ L J).
    + pose proof H1 as (R1 & _). pose proof (rd_Some_range _ _ _ R1). destruct (Z.eqb_spec (findEdge g e) (-1)); [lia|]. destruct (removeEdge_ok g (findEdge g e) G) as (G' & (M & Nd) & V & _). split; [exact G'|]. split; [split; [|exact Nd]|exact V].
      intros i f. rewrite (M i f). split; intros (L & Hn); (split; [exact L|]).
      * intros (J & Lm). apply Hn. pose proof (Lm _ _ H1 H2). pose proof (H3 _ _ L J). lia.
      * intros ->. apply Hn. destruct H1 as (R & _), L as (R' & _). rewrite R in R'. injection R' as <-. split; [exact H2|]. intros k b Hk Jb. exact (H3 _ _ Hk Jb).
Qed.

Lemma remove_if_ok (p : edge -> bool) g : good_graph g -> good_graph (remove_if p g) /\ keeps (fun _ e => p e = true) g (remove_if p g) /\ nodes (remove_if p g) = nodes g /\ nodeValues (remove_if p g) = nodeValues g.
Proof.
  intros G. unfold remove_if.
  assert (K : forall l g', NoDup l -> good_graph g' -> (forall i, In i l -> rd (edges g') i = rd (edges g) i) -> nodes g' = nodes g -> nodeValues g' = nodeValues g ->
    let r := fold_left (fun g i => match rd (edges g) i with Some e => if p e then removeEdge g i else g | None => g end) l g' in
    good_graph r /\ keeps (fun i e => In i l /\ p e = true) g' r /\ nodes r = nodes g /\ nodeValues r = nodeValues g).
  { induction l as [|i l IH]; intros g' HN G' Hs Nd Vs; cbn [fold_left].
    - split; [exact G'|]. split; [apply keeps_id; intros i e _ ([] & _)|auto].
    - apply NoDup_cons_iff in HN as (Hi & HN). cbn zeta in IH.
      assert (Step : let g1 := match rd (edges g') i with Some e => if p e then removeEdge g' i else g' | None => g' end in
        good_graph g1 /\ keeps (fun j e => j = i /\ p e = true) g' g1 /\ nodes g1 = nodes g /\ nodeValues g1 = nodeValues g /\ forall j, j <> i -> rd (edges g1) j = rd (edges g') j).
      { cbn zeta. destruct (rd (edges g') i) as [e|] eqn:E.
        - destruct (p e) eqn:P.
          + destruct (removeEdge_ok g' i G') as (G1 & (M & Nd1) & V1 & _ & R1). split; [exact G1|]. split; [|split; [congruence|split; [congruence|exact R1]]].
            intros j f. rewrite (M j f). split; intros (L & H); (split; [exact L|]); [tauto|]. intros ->. apply H. split; [reflexivity|]. destruct L as (L & _). congruence.
          + split; [exact G'|]. split; [|auto]. apply keeps_id. intros j f (L & _) (-> & H). congruence.
        - split; [exact G'|]. split; [|auto]. apply keeps_id. intros j f (L & _) (-> & H). congruence. }
      cbn zeta in Step. destruct Step as (G1 & M1 & Nd1 & V1 & R1). destruct (IH _ HN G1) as (G2 & M2 & Nd2 & V2); [|exact Nd1|exact V1|].
      { intros j Hj. rewrite R1 by congruence. apply Hs. right. exact Hj. }
      split; [exact G2|]. split; [|auto]. intros j f. rewrite (M2 j f), (M1 j f). cbn [In]. assert (Sy : i = j <-> j = i) by (split; congruence). tauto. }
  destruct (K (zseq (Z.of_nat (length (edges g)))) g (zseq_NoDup _) G) as (G' & M & Nd & V); auto. split; [exact G'|]. split; [|auto].
  intros i e. rewrite (M i e). split; intros (L & H); (split; [exact L|]); [|tauto]. intros P. apply H. split; [|exact P]. apply zseq_In. destruct L as (L & _). eapply rd_Some_range. exact L.
Qed.

Lemma remove_all_ok n l : forall g, NoDup l -> edgeNbr g = Z.of_nat (length (edges g)) -> increasing (map fst (nodeEdges g)) ->
  (forall k, k <> n -> list_at g k = edges_at k (edges g)) -> (forall i, In i l <-> In i (edges_at n (edges g))) -> (forall i e, live g i e -> ~ (src e = n /\ tgt e = n)) ->
  exists g', remove_all n l g = Some g' /\ (forall k, k <> n -> list_at g' k = edges_at k (edges g')) /\ edges_at n (edges g') = [] /\
    keeps (fun _ f => touches f n) g g' /\ nodes g' = nodes g /\ nodeValues g' = nodeValues g /\ map fst (nodeEdges g') = map fst (nodeEdges g) /\ edgeNbr g' = Z.of_nat (length (edges g')).
Proof.
  induction l as [|i l IH]; intros g HN E0 Hk HL HI Hloop; cbn [remove_all].
  - exists g. assert (En : edges_at n (edges g) = []) by (destruct (edges_at n (edges g)) as [|a r] eqn:E; [reflexivity|exfalso; apply (HI a); left; reflexivity]).
    repeat (split; [first [reflexivity|assumption]|]). split; [|auto]. apply keeps_id. intros j f (L & Na) T. assert (In j (edges_at n (edges g))); [|rewrite En in *; contradiction]. apply edges_at_In. exists f. split; [exact L|]. split; [apply active_live; exact Na|exact T].
  - apply NoDup_cons_iff in HN as (Hi & HN). destruct (proj1 (edges_at_In n (edges g) i) (proj1 (HI i) (or_introl eq_refl))) as (e & E & A & T). rewrite E. cbn [option_bind].
    assert (Nl : ~ (src e = n /\ tgt e = n)) by (apply (Hloop i); split; [exact E|apply active_live; exact A]).
    destruct ((src e =? n) && (tgt e =? n)) eqn:B; [rewrite andb_true_iff, !Z.eqb_eq in B; contradiction|]. clear B.
    set (m := if src e =? n then tgt e else src e). assert (Nm : m <> n /\ touches e m /\ forall k, touches e k -> k = n \/ k = m).
    { unfold m, touches in *. destruct (Z.eqb_spec (src e) n); intuition congruence. }
    destruct Nm as (Nm & Tm & Tk). set (g1 := with_edges g (upd (edges g) i (desactivate e)) (removeNodeEdge m i (nodeEdges g))).
    assert (Lv : forall j f, live g1 j f <-> live g j f /\ j <> i) by (intros; apply (live_upd g _ _ i e); [exact E|reflexivity]).
    destruct (IH g1 HN) as (g' & R & H1 & H2 & H3 & H4 & H5 & H6 & H7).
    + cbn. rewrite upd_length. exact E0.
    + unfold g1. cbn [nodeEdges with_edges]. rewrite remove_keys; exact Hk.
    + intros k Nk. unfold g1. rewrite lat_at. cbn [nodeEdges with_edges edges]. rewrite lat_remove, (edges_at_upd _ _ _ _ E). destruct (Z.eqb_spec k m) as [->|Nkm].
      * rewrite <- lat_at, HL by exact Nm. apply (erase_iter i 1). rewrite count_edges. unfold ends. rewrite E. unfold ends_at. rewrite A. clear - Tm T Nm Nl. unfold touches in *. destruct (Z.eqb_spec (src e) m), (Z.eqb_spec (tgt e) m); cbn; try reflexivity; exfalso; intuition congruence.
      * rewrite <- lat_at, HL by exact Nk. symmetry. apply set_erase_notin. intros Hin. apply edges_at_In in Hin as (e' & E' & _ & T'). assert (e' = e) by congruence. subst e'. destruct (Tk k T'); contradiction.
    + intros j. unfold g1. cbn [edges with_edges]. rewrite (edges_at_upd _ _ _ _ E), set_erase_In, <- HI. cbn [In]. intuition congruence.
    + intros j f L. apply (Hloop j). apply Lv. exact L.
    + exists g'. split; [exact R|]. split; [exact H1|]. split; [exact H2|]. split; [|split; [exact H4|split; [exact H5|split; [|exact H7]]]].
      * intros j f. rewrite (H3 j f), (Lv j f). split; [tauto|]. intros (L & Nt). split; [|exact Nt]. split; [exact L|]. intros ->. destruct L as (L & _). apply Nt. replace f with e by congruence. exact T.
      * rewrite H6. unfold g1. cbn [nodeEdges with_edges]. apply remove_keys. exact Hk.
Qed.
Lemma removeNodeEdges_ok g n : good_graph g -> (forall i e, live g i e -> ~ (src e = n /\ tgt e = n)) ->
  exists g', removeNodeEdges g n = Some g' /\ good_graph g' /\ meant g (ORemoveNodeEdges n) g' /\ nodeValues g' = nodeValues g.
Proof.
  intros G Hl. pose proof G as (G1 & G2 & G3 & G4 & G5 & G6 & G7 & G8). unfold removeNodeEdges. destruct (map_find n (nodeEdges g)) as [l|] eqn:F.
  - assert (El : l = edges_at n (edges g)) by (rewrite <- G2; unfold list_at; rewrite F; reflexivity).
    destruct (remove_all_ok n l g) as (g' & R & H1 & H2 & H3 & H4 & H5 & H6 & H7).
    + rewrite El. apply (NoDup_count_occ Z.eq_dec). intros i. rewrite count_edges. unfold ends. destruct (rd (edges g) i) as [e|] eqn:E; [|lia]. unfold ends_at. destruct (isActive e) eqn:A; [|lia].
      assert (~ (src e = n /\ tgt e = n)) by (apply (Hl i); split; [exact E|apply active_live; exact A]). destruct (Z.eqb_spec (src e) n), (Z.eqb_spec (tgt e) n); cbn; try lia; tauto.
    + exact G1.
    + exact G4.
    + intros; apply G2.
    + intros i. rewrite El. reflexivity.
    + exact Hl.
    + rewrite R. cbn [option_bind]. assert (Keys : map fst (map_set n [] (nodeEdges g')) = map fst (nodeEdges g)).
      { rewrite map_set_keys, H6. apply set_insert_id; [exact G4|]. apply map_find_keys. congruence. }
      eexists. split; [reflexivity|]. split; [|split; [split; [exact H3|exact H4]|exact H5]]. repeat split; cbn [edgeNbr nodes nodeValues edges nodeEdges with_edges].
      * exact H7.
      * intros k. rewrite list_at_set. destruct (Z.eqb_spec k n) as [->|N]; [symmetry; exact H2|]. apply H1. exact N.
      * rewrite H4. exact G3.
      * rewrite Keys. exact G4.
      * rewrite H5. exact G5.
      * intros i e k L T. rewrite Keys. apply (G6 i e); [|exact T]. apply (H3 i e). exact L.
      * rewrite Keys, H4. exact G7.
      * rewrite H5, H4. exact G8.
  - exists g. split; [reflexivity|]. split; [exact G|]. split; [|reflexivity]. split; [|reflexivity]. apply keeps_id. intros i e L T. apply (map_find_keys n (nodeEdges g)); [|exact F]. eapply G6; eassumption.
Qed.
