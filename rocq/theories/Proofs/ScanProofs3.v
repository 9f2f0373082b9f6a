(** Mosaics. *)
From Verif Require Export Proofs.MeasureProofs2 Proofs.GraphProofs2 Proofs.ScanProofs2.

(** ** The raster *)
Lemma map_flat_map' {A B C} (f : B -> C) (g : A -> list B) l : map f (flat_map g l) = flat_map (fun a => map f (g a)) l.
Proof. induction l as [|a l IH]; [reflexivity|]. cbn. rewrite map_app, IH. reflexivity. Qed.
Lemma flat_map_flat_map' {A B C} (f : B -> list C) (g : A -> list B) l : flat_map f (flat_map g l) = flat_map (fun a => flat_map f (g a)) l.
Proof. induction l as [|a l IH]; [reflexivity|]. cbn. rewrite flat_map_app, IH. reflexivity. Qed.
Lemma flat_map_map' {A B C} (f : B -> list C) (g : A -> B) l : flat_map f (map g l) = flat_map (fun a => f (g a)) l.
Proof. induction l as [|a l IH]; [reflexivity|]. cbn. rewrite IH. reflexivity. Qed.
Lemma raster_pos_zseq s : 0 <= dw s -> 0 <= dh s -> 0 <= dd s -> map (scan_pos s) (raster s) = zseq (dd s * dh s * dw s).
Proof.
  intros Hw Hh Hd. rewrite zseq_mul by nia. rewrite (zseq_mul (dd s) (dh s)) by lia. rewrite flat_map_flat_map'. unfold raster. rewrite map_flat_map'. apply flat_map_ext. intros z. rewrite map_flat_map'. unfold zrange. rewrite flat_map_map'. apply flat_map_ext. intros y. rewrite map_map. apply map_ext. intros x. unfold scan_pos, voxel_offset. lia.
Qed.
Lemma raster_pos s : map (scan_pos s) (raster s) = zseq (Z.of_nat (length (raster s))).
Proof.
  destruct (raster s) as [|c r] eqn:E; [reflexivity|]. rewrite <- E. assert (0 <= dw s /\ 0 <= dh s /\ 0 <= dd s) as (A & B & C). { destruct c as ((x, y), z). assert (In (x, y, z) (raster s)) as H by (rewrite E; left; reflexivity). apply raster_In in H. unfold inside in H. lia. }
  rewrite <- (map_length (scan_pos s)), raster_pos_zseq by assumption. rewrite zseq_length, Z2Nat.id by nia. reflexivity.
Qed.
Lemma raster_NoDup s : NoDup (raster s).
Proof. apply (NoDup_map_inv (scan_pos s)). rewrite raster_pos. apply zseq_NoDup. Qed.
Lemma nbhd_length se s c : (length (nbhd se s c) <= length (se_points se))%nat.
Proof. unfold nbhd. rewrite <- (map_length (place se c) (se_points se)). induction (map (place se c) (se_points se)) as [|q l IH]; cbn [filter length]; [lia|]. destruct (insideb3 s q); cbn [length]; lia. Qed.

(** ** The visits *)
Lemma visits_In se s c q : In (c, q) (visits se s) <-> In c (raster s) /\ In q (nbhd se s c).
Proof.
  unfold visits. rewrite in_flat_map. split.
  - intros (d & Hd & H). apply in_map_iff in H as (e & E & He). injection E as -> ->. auto.
  - intros (H1 & H2). exists c. split; [exact H1|]. apply in_map. exact H2.
Qed.


(** One step. *)
Definition mnodes (nv : option img) (g : graph) (lab : Z * Z * Z -> Z) (v : (Z * Z * Z) * (Z * Z * Z)) : graph :=
  match nv with None => g | Some nv => addNode_val (addNode_val g (lab (fst v)) (at3 nv (fst v))) (lab (snd v)) (at3 nv (snd v)) end.
Definition mstep (ev nv : option img) (lab : Z * Z * Z -> Z) (g : graph) (v : (Z * Z * Z) * (Z * Z * Z)) : graph :=
  let a := lab (fst v) in let b := lab (snd v) in
  if b =? a then g else
  match ev with
  | None => addEdge (mnodes nv g lab v) (Edge a b 0) false
  | Some ev =>
      let i := findEdge g (Edge a b 1) in let w := at3 ev (fst v) in
      if negb (i =? -1) then match rd (edges g) i with Some e => with_edges g (upd (edges g) i (Edge (src e) (tgt e) (Z.min (wt e) w))) (nodeEdges g) | None => g end
      else addEdge (mnodes nv g lab v) (Edge a b w) false
  end.

Definition opt_like (im : img) (o : option img) : Prop := match o with Some i => wf_img i /\ sz i = sz im | None => True end.

Lemma mosaic_neighbor_ok ev nv im c q g : wf_img im -> int_sized (sz im) -> opt_like im ev -> opt_like im nv -> In c (raster (sz im)) -> In q (raster (sz im)) ->
  mosaic_neighbor (option_map pixs ev) (option_map pixs nv) (pixs im) (scan_pos (sz im) c) (at3 im c) g (scan_pos (sz im) q - scan_pos (sz im) c) = Some (mstep ev nv (at3 im) g (c, q)).
Proof.
  intros W Hs Le Ln Hc Hq. unfold mosaic_neighbor, mstep. cbn [fst snd]. rewrite rd_back by assumption. cbn [option_bind]. fold (at3 im q). destruct (Z.eqb_spec (at3 im q) (at3 im c)) as [E|N]; [reflexivity|].
  assert (Hn : match option_map pixs nv with None => Some g | Some nv0 => option_bind (rd nv0 (scan_pos (sz im) c)) (fun a => option_bind (rd nv0 (to_size (scan_pos (sz im) c + (scan_pos (sz im) q - scan_pos (sz im) c)))) (fun b => Some (addNode_val (addNode_val g (at3 im c) a) (at3 im q) b))) end = Some (mnodes nv g (at3 im) (c, q))).
  { destruct nv as [nv|]; [|reflexivity]. cbn [option_map mnodes fst snd]. destruct Ln as (Wn & En). rewrite <- En. rewrite (rd_znth 0) by (apply pos_range; [exact Wn|rewrite En; exact Hc]). cbn [option_bind]. rewrite rd_back by (try rewrite En; assumption). reflexivity. }
  rewrite Hn. cbn [option_bind]. destruct ev as [ev|]; [|reflexivity]. cbn [option_map]. destruct Le as (We & Ee).
  assert (rd (pixs ev) (scan_pos (sz im) c) = Some (at3 ev c)) as -> by (unfold at3; rewrite Ee; apply rd_znth; rewrite <- Ee; apply pos_range; [exact We|rewrite Ee; exact Hc]). cbn [option_bind].
  destruct (findEdge_spec g (Edge (at3 im c) (at3 im q) 1)) as [(F & _)|(e & (H & _) & _)]; [cbn; lia|rewrite F; reflexivity|]. rewrite H. pose proof (rd_Some_range _ _ _ H). destruct (Z.eqb_spec (findEdge g (Edge (at3 im c) (at3 im q) 1)) (-1)); [lia|]. reflexivity.
Qed.

Lemma fold_opt_pure {A B} (f : B -> A -> option B) (h : B -> A -> B) l : (forall b a, In a l -> f b a = Some (h b a)) -> forall b, fold_opt f l b = Some (fold_left h l b).
Proof. induction l as [|a l IH]; intros H b; [reflexivity|]. cbn. rewrite H by (left; reflexivity). cbn. apply IH. intros; apply H; right; assumption. Qed.
Lemma fold_left_flat {A B C} (h : B -> C -> B) (F : A -> list C) l : forall b, fold_left h (flat_map F l) b = fold_left (fun b a => fold_left h (F a) b) l b.
Proof. induction l as [|a l IH]; intros b; [reflexivity|]. cbn. rewrite fold_left_app. apply IH. Qed.
Lemma fold_left_map' {A B C} (h : B -> C -> B) (F : A -> C) l : forall b, fold_left h (map F l) b = fold_left (fun b a => h b (F a)) l b.
Proof. induction l as [|a l IH]; intros b; [reflexivity|]. cbn. apply IH. Qed.
Lemma fold_left_ext' {A B} (f h : B -> A -> B) l : (forall b a, f b a = h b a) -> forall b, fold_left f l b = fold_left h l b.
Proof. intros H. induction l as [|a l IH]; intros b; [reflexivity|]. cbn. rewrite H. apply IH. Qed.

Lemma mosaic_ok ev nv se im g : scannable (scaled se) (sz im) -> wf_img im -> opt_like im ev -> opt_like im nv ->
  mosaicToGraph ev nv se im g = Some (1, fold_left (mstep ev nv (at3 im)) (visits (scaled se) (sz im)) graph0).
Proof.
  intros Hsc W Le Ln. unfold mosaicToGraph. assert (forallb (fun o => match o with Some im0 => same_size im im0 | None => true end) [ev; nv] = true) as ->.
  { cbn [forallb]. rewrite !andb_true_iff. repeat split; [destruct ev|destruct nv]; auto; apply same_size_true; symmetry; [apply Le|apply Ln]. }
  rewrite scan_image_ok by exact Hsc. pose proof Hsc as (Hs & _).
  rewrite (fold_opt_pure _ (fun g c => fold_left (mstep ev nv (at3 im)) (map (fun q => (c, q)) (nbhd (scaled se) (sz im) c)) g)).
  - cbn [option_map]. unfold visits, clear. rewrite fold_left_flat. reflexivity.
  - intros b c Hc. unfold mosaic_pixel. rewrite (rd_znth 0) by (apply pos_range; assumption). cbn [option_bind]. fold (at3 im c). rewrite fold_opt_map, fold_left_map'. apply fold_opt_pure. intros b' q Hq. apply mosaic_neighbor_ok; auto. eapply nbhd_raster. exact Hq.
Qed.

(** ** Invariants *)

Lemma rd_app1 {A} (l : list A) a i v : rd (l ++ [a]) i = Some v <-> rd l i = Some v \/ (i = Z.of_nat (length l) /\ v = a).
Proof. split; [intros H; apply rd_app_inv in H as [H|(-> & ->)]; auto|intros [H|(-> & ->)]; [apply rd_app_l; exact H|apply rd_last]]. Qed.

(** Changing a weight. *)
Lemma edges_at_wt n es i e w : rd es i = Some e -> edges_at n (upd es i (Edge (src e) (tgt e) w)) = edges_at n es.
Proof.
  intros E. rewrite !edges_at_ends, upd_length. apply flat_map_ext. intros j. f_equal. unfold ends. rewrite rd_upd. destruct (Z.eqb_spec i j) as [<-|]; [|reflexivity]. pose proof (rd_Some_range _ _ _ E). replace (0 <=? i) with true by lia. replace (i <? _) with true by lia. cbn [andb]. rewrite E. reflexivity.
Qed.
Lemma rd_upd_some {A} (l : list A) i a j v : rd l i <> None -> rd (upd l i a) j = Some v <-> (j = i /\ v = a) \/ (j <> i /\ rd l j = Some v).
Proof.
  intros H. assert (0 <= i < Z.of_nat (length l)) as R. { destruct (rd l i) eqn:E; [|congruence]. eapply rd_Some_range. exact E. }
  rewrite rd_upd. destruct (Z.eqb_spec i j) as [<-|N].
  - replace (0 <=? i) with true by lia. replace (i <? _) with true by lia. cbn [andb]. intuition congruence.
  - cbn [andb]. intuition congruence.
Qed.
Lemma weight_good g i e w : good_graph g -> rd (edges g) i = Some e -> good_graph (with_edges g (upd (edges g) i (Edge (src e) (tgt e) w)) (nodeEdges g)).
Proof.
  intros (G1 & G2 & G3 & G4 & G5 & G6 & G7 & G8) E. unfold with_edges. repeat split; cbn [edgeNbr nodes nodeValues edges nodeEdges]; auto.
  - rewrite upd_length. exact G1.
  - intros n. rewrite edges_at_wt by exact E. apply G2.
  - intros j f n (H & Na) Ht. cbn [edges] in H. apply rd_upd_some in H; [|congruence]. destruct H as [(-> & ->)|(_ & H)]; [|eapply G6; [split; eassumption|exact Ht]]. eapply G6; [split; [exact E|exact Na]|exact Ht].
Qed.

Lemma mnodes_good nv g lab v : good_graph g -> good_graph (mnodes nv g lab v).
Proof. intros G. destruct nv; [|exact G]. apply addNode_val_good, addNode_val_good, G. Qed.

(** The nodes and their values. *)
Definition ninv (nv : option img) (lab : Z * Z * Z -> Z) (L : list ((Z * Z * Z) * (Z * Z * Z))) (g : graph) : Prop :=
  good_graph g /\
  (forall n, In n (nodes g) <-> exists v, In v L /\ lab (fst v) <> lab (snd v) /\ (n = lab (fst v) \/ n = lab (snd v))) /\
  (forall n, In n (nodes g) -> In n (map fst (nodeEdges g))) /\
  match nv with
  | None => nodeValues g = []
  | Some nv => (forall n, In n (nodes g) -> In n (map fst (nodeValues g))) /\
      forall n x, map_find n (nodeValues g) = Some x -> exists v p, In v L /\ (p = fst v \/ p = snd v) /\ lab p = n /\ at3 nv p = x
  end.

Lemma ninv_more nv lab L g v : ninv nv lab L g -> (lab (fst v) <> lab (snd v) -> In (lab (fst v)) (nodes g) /\ In (lab (snd v)) (nodes g)) -> ninv nv lab (L ++ [v]) g.
Proof.
  intros (G & N & K & V) H. split; [exact G|]. split; [|split; [exact K|]].
  - intros n. rewrite N. split; [intros (u & Hu & R); exists u; rewrite in_app_iff; tauto|]. intros (u & Hu & D & R). apply in_app_iff in Hu as [Hu|[<-|[]]]; [exists u; auto|]. apply N. destruct (H D), R; subst; assumption.
  - destruct nv as [nv|]; [|exact V]. destruct V as (V1 & V2). split; [exact V1|]. intros n x Hx. destruct (V2 n x Hx) as (u & p & Hu & R). exists u, p. rewrite in_app_iff. tauto.
Qed.
Lemma ninv_add nv lab L g v w : ninv nv lab L g -> lab (fst v) <> lab (snd v) -> ninv nv lab (L ++ [v]) (addEdge (mnodes nv g lab v) (Edge (lab (fst v)) (lab (snd v)) w) false).
Proof.
  intros (G & N & K & V) D. split; [apply addEdge_new; [apply mnodes_good; exact G|cbn; lia]|]. unfold addEdge. cbn [andb nodes nodeEdges nodeValues src tgt].
  assert (HN : forall n, In n (set_insert (lab (snd v)) (set_insert (lab (fst v)) (nodes (mnodes nv g lab v)))) <-> n = lab (snd v) \/ n = lab (fst v) \/ In n (nodes g)).
  { intros n. rewrite !set_insert_In. destruct nv; [|reflexivity]. cbn [mnodes addNode_val nodes]. rewrite !set_insert_In. tauto. }
  split; [|split].
  - intros n. rewrite HN, N. split.
    + intros [->|[->|(u & Hu & R)]]; [exists v|exists v|exists u]; rewrite in_app_iff; cbn; tauto.
    + intros (u & Hu & Du & R). apply in_app_iff in Hu as [Hu|[<-|[]]]; [|destruct R; auto]. right; right. exists u. auto.
  - intros n Hn. unfold push_edge. rewrite !map_set_keys, !set_insert_In. apply HN in Hn as [->|[->|Hn]]; auto. right; right. destruct nv; apply K; exact Hn.
  - destruct nv as [nv|]; [|exact V]. cbn [mnodes addNode_val nodeValues]. destruct V as (V1 & V2). split.
    + intros n Hn. rewrite !map_set_keys, !set_insert_In. apply HN in Hn as [->|[->|Hn]]; auto.
    + intros n x. rewrite !map_find_set. destruct (Z.eqb_spec n (lab (snd v))) as [->|]; [intros [= <-]; exists v, (snd v); rewrite in_app_iff; cbn; auto|]. destruct (Z.eqb_spec n (lab (fst v))) as [->|]; [intros [= <-]; exists v, (fst v); rewrite in_app_iff; cbn; auto 10|].
      intros Hx. destruct (V2 n x Hx) as (u & p & Hu & R). exists u, p. rewrite in_app_iff. tauto.
Qed.
Lemma ninv_weight nv lab L g i e w : ninv nv lab L g -> rd (edges g) i = Some e -> ninv nv lab L (with_edges g (upd (edges g) i (Edge (src e) (tgt e) w)) (nodeEdges g)).
Proof. intros (G & N & K & V) E. split; [apply weight_good; assumption|]. split; [exact N|]. split; [exact K|exact V]. Qed.

(** Without edge values. *)
Definition differ (lab : Z * Z * Z -> Z) (v : (Z * Z * Z) * (Z * Z * Z)) : bool := negb (lab (snd v) =? lab (fst v)).
Definition edge_of (lab : Z * Z * Z -> Z) (v : (Z * Z * Z) * (Z * Z * Z)) : edge := Edge (lab (fst v)) (lab (snd v)) 0.
Lemma steps_plain nv lab M : forall L g, ninv nv lab L g -> edges g = map (edge_of lab) (filter (differ lab) L) ->
  let g' := fold_left (mstep None nv lab) M g in ninv nv lab (L ++ M) g' /\ edges g' = map (edge_of lab) (filter (differ lab) (L ++ M)).
Proof.
  induction M as [|v M IH]; intros L g I E; [rewrite app_nil_r; auto|]. cbn [fold_left]. replace (L ++ v :: M) with ((L ++ [v]) ++ M) by (rewrite <- app_assoc; reflexivity). apply IH.
  - unfold mstep. destruct (Z.eqb_spec (lab (snd v)) (lab (fst v))) as [Q|Q]; [apply ninv_more; [exact I|congruence]|]. apply ninv_add; [exact I|congruence].
  - unfold mstep. rewrite filter_app, map_app, <- E. cbn [filter]. unfold differ. destruct (Z.eqb_spec (lab (snd v)) (lab (fst v))) as [Q|Q]; cbn [negb map]; [rewrite app_nil_r; reflexivity|]. unfold addEdge. cbn [andb edges]. destruct nv; reflexivity.
Qed.

(** With edge values. *)
Definition einv (ev : img) (lab : Z * Z * Z -> Z) (L : list ((Z * Z * Z) * (Z * Z * Z))) (g : graph) : Prop :=
  (forall i e, rd (edges g) i = Some e -> src e <> tgt e /\
     (exists v, In v L /\ joins e (lab (fst v)) (lab (snd v)) /\ wt e = at3 ev (fst v)) /\
     (forall v, In v L -> joins e (lab (fst v)) (lab (snd v)) -> wt e <= at3 ev (fst v))) /\
  (forall v, In v L -> lab (fst v) <> lab (snd v) -> exists i e, rd (edges g) i = Some e /\ joins e (lab (fst v)) (lab (snd v))) /\
  (forall i j e f a b, rd (edges g) i = Some e -> rd (edges g) j = Some f -> joins e a b -> joins f a b -> i = j).

Lemma joins_same e a b c d : joins e a b -> joins e c d -> forall f, joins f a b <-> joins f c d.
Proof. unfold joins. intros H1 H2 f. destruct H1 as [(<- & <-)|(<- & <-)], H2 as [(<- & <-)|(<- & <-)]; tauto. Qed.
Lemma rd_live g i e : rd (edges g) i = Some e -> src e <> tgt e -> live g i e.
Proof. intros H N. split; [exact H|]. lia. Qed.

Lemma steps_valued ev nv lab M : forall L g, ninv nv lab L g -> einv ev lab L g ->
  let g' := fold_left (mstep (Some ev) nv lab) M g in ninv nv lab (L ++ M) g' /\ einv ev lab (L ++ M) g'.
Proof.
  induction M as [|v M IH]; intros L g I E; [rewrite app_nil_r; auto|]. cbn [fold_left]. replace (L ++ v :: M) with ((L ++ [v]) ++ M) by (rewrite <- app_assoc; reflexivity). apply IH; clear IH M.
  - unfold mstep. destruct (Z.eqb_spec (lab (snd v)) (lab (fst v))) as [Q|Q]; [apply ninv_more; [exact I|congruence]|].
    destruct (findEdge_spec g (Edge (lab (fst v)) (lab (snd v)) 1)) as [(F & _)|(e & (H & Na) & J & _)]; [cbn; lia|rewrite F; apply ninv_add; [exact I|congruence]|].
    pose proof (rd_Some_range _ _ _ H). destruct (Z.eqb_spec (findEdge g (Edge (lab (fst v)) (lab (snd v)) 1)) (-1)); [lia|]. cbn [negb]. rewrite H. apply ninv_weight; [|exact H]. apply ninv_more; [exact I|]. intros _. cbn in J.
    destruct E as (E1 & _). destruct (E1 _ _ H) as (_ & (u & Hu & Ju & _) & _). destruct I as (_ & N & _). split; apply N; exists u; (split; [exact Hu|]); unfold joins in J, Ju; destruct J as [(J1 & J2)|(J1 & J2)], Ju as [(K1 & K2)|(K1 & K2)]; (split; [congruence|first [left; congruence|right; congruence]]).
  - destruct E as (E1 & E2 & E3). unfold mstep. destruct (Z.eqb_spec (lab (snd v)) (lab (fst v))) as [Q|Q].
    { split; [|split; [|exact E3]].
      - intros i e H. destruct (E1 i e H) as (S & (u & Hu & Ju) & Mn). split; [exact S|]. split; [exists u; rewrite in_app_iff; auto|]. intros x Hx Jx. apply in_app_iff in Hx as [Hx|[<-|[]]]; [apply Mn; assumption|]. exfalso. destruct Jx as [(? & ?)|(? & ?)]; congruence.
      - intros x Hx D. apply in_app_iff in Hx as [Hx|[<-|[]]]; [apply E2; assumption|congruence]. }
    destruct (findEdge_spec g (Edge (lab (fst v)) (lab (snd v)) 1)) as [(F & HF)|(e & (H & Na) & J & _)]; [cbn; lia| |].
    + rewrite F. change (negb (-1 =? -1)) with false. cbv iota. cbn [src tgt] in HF. assert (edges (addEdge (mnodes nv g lab v) (Edge (lab (fst v)) (lab (snd v)) (at3 ev (fst v))) false) = edges g ++ [Edge (lab (fst v)) (lab (snd v)) (at3 ev (fst v))]) as Eq by (unfold addEdge; cbn [andb edges]; destruct nv; reflexivity).
      unfold einv. cbv zeta. rewrite Eq. clear Eq. split; [|split].
      * intros i e H. apply rd_app1 in H as [H|(-> & ->)].
        -- destruct (E1 i e H) as (S & (u & Hu & Ju) & Mn). split; [exact S|]. split; [exists u; rewrite in_app_iff; auto|]. intros x Hx Jx. apply in_app_iff in Hx as [Hx|[<-|[]]]; [apply Mn; assumption|]. exfalso. apply (HF i e); [apply rd_live; assumption|exact Jx].
        -- cbn [src tgt wt]. split; [congruence|]. split; [exists v; rewrite in_app_iff; cbn; unfold joins; cbn; auto|]. intros x Hx Jx. apply in_app_iff in Hx as [Hx|[<-|[]]]; [|lia]. exfalso.
           assert (D : lab (fst x) <> lab (snd x)) by (unfold joins in Jx; cbn in Jx; destruct Jx as [(? & ?)|(? & ?)]; congruence). destruct (E2 x Hx D) as (i & e & He & Je). apply (HF i e).
           ++ apply rd_live; [exact He|]. apply (E1 i e He).
           ++ refine (proj1 (joins_same _ _ _ _ _ Jx _ e) Je). unfold joins. cbn. auto.
      * intros x Hx D. apply in_app_iff in Hx as [Hx|[<-|[]]].
        -- destruct (E2 x Hx D) as (i & e & He & Je). exists i, e. rewrite rd_app1. auto.
        -- eexists _, _. rewrite rd_app1. split; [right; split; reflexivity|]. unfold joins. cbn. auto.
      * intros i j e f a b Hi Hj Ji Jj. apply rd_app1 in Hi, Hj. destruct Hi as [Hi|(-> & ->)], Hj as [Hj|(-> & ->)]; [eapply E3; eassumption| | |reflexivity]; exfalso.
        -- apply (HF i e); [apply rd_live; [exact Hi|apply (E1 i e Hi)]|]. refine (proj1 (joins_same _ _ _ _ _ Jj _ e) Ji). unfold joins. cbn. auto.
        -- apply (HF j f); [apply rd_live; [exact Hj|apply (E1 j f Hj)]|]. refine (proj1 (joins_same _ _ _ _ _ Ji _ f) Jj). unfold joins. cbn. auto.
    + cbn [src tgt] in J. pose proof (rd_Some_range _ _ _ H). set (k := findEdge g (Edge (lab (fst v)) (lab (snd v)) 1)) in *. destruct (Z.eqb_spec k (-1)); [lia|]. cbn [negb]. rewrite H. unfold einv, with_edges. cbn [edges].
      assert (Hk : rd (edges g) k <> None) by congruence. split; [|split].
      * intros i f Hf. apply rd_upd_some in Hf; [|exact Hk]. destruct Hf as [(-> & ->)|(Nk & Hf)].
        -- cbn [src tgt wt]. destruct (E1 k e H) as (S & (u & Hu & Ju & Wu) & Mn). split; [exact S|]. split.
           ++ destruct (Z.le_gt_cases (wt e) (at3 ev (fst v))); [exists u|exists v]; rewrite in_app_iff; unfold joins in *; cbn [src tgt]; (split; [cbn; auto|]); (split; [auto|lia]).
           ++ intros x Hx Jx. apply in_app_iff in Hx as [Hx|[<-|[]]]; [|lia]. specialize (Mn x Hx Jx). lia.
        -- destruct (E1 i f Hf) as (S & (u & Hu & Ju) & Mn). split; [exact S|]. split; [exists u; rewrite in_app_iff; auto|]. intros x Hx Jx. apply in_app_iff in Hx as [Hx|[<-|[]]]; [apply Mn; assumption|]. exfalso. apply Nk. eapply E3; eassumption.
      * intros x Hx D. assert (exists i f, rd (edges g) i = Some f /\ joins f (lab (fst x)) (lab (snd x))) as (i & f & Hf & Jf) by (apply in_app_iff in Hx as [Hx|[<-|[]]]; [apply E2; assumption|exists k, e; auto]).
        destruct (Z.eq_dec i k) as [->|Nk]; [|exists i, f; rewrite rd_upd_some by exact Hk; auto]. assert (f = e) as -> by congruence. eexists k, _. rewrite rd_upd_some by exact Hk. split; [left; split; reflexivity|]. exact Jf.
      * intros i j a b x y Ha Hb Ja Jb. apply rd_upd_some in Ha, Hb; [|exact Hk|exact Hk]. destruct Ha as [(-> & ->)|(Ni & Ha)], Hb as [(-> & ->)|(Nj & Hb)]; [reflexivity| | |eapply E3; eassumption].
        -- eapply (E3 k j e b x y); try eassumption.
        -- eapply (E3 i k a e x y); try eassumption.
Qed.

Lemma ninv0 nv lab : ninv nv lab [] graph0.
Proof.
  split; [apply graph0_good|]. split; [intros n; split; [intros []|intros (v & [] & _)]|]. split; [intros n []|]. destruct nv; [|reflexivity]. split; [intros n []|]. intros n x H. discriminate H.
Qed.
Lemma einv0 ev lab : einv ev lab [] graph0.
Proof. split; [intros i e H; apply rd_In in H; destruct H|]. split; [intros v []|]. intros i j e f a b H. apply rd_In in H. destruct H. Qed.

Lemma meets_visit se im p q a b : meets se im p q a b <-> In (p, q) (visits se (sz im)) /\ at3 im p = a /\ at3 im q = b /\ a <> b.
Proof. unfold meets. rewrite visits_In. unfold values_on. cbn [map]. fold (at3 im p) (at3 im q). split; [intros (H1 & H2 & H3 & H4); injection H3 as E1 E2; auto|]. intros ((H1 & H2) & <- & <- & H3). auto. Qed.

(** ** From a graph to a mosaic *)
Lemma remove_if_keys p g : good_graph g -> map fst (nodeEdges (remove_if p g)) = map fst (nodeEdges g).
Proof.
  unfold remove_if. intros G. generalize (zseq (Z.of_nat (length (edges g)))) as l. intros l. revert g G. induction l as [|i l IH]; intros g G; [reflexivity|]. cbn [fold_left]. destruct (rd (edges g) i) as [e|] eqn:E; [|apply IH; exact G]. destruct (p e); [|apply IH; exact G].
  rewrite IH by (apply removeEdge_ok; exact G). unfold removeEdge. rewrite E. cbn [with_edges nodeEdges]. destruct G as (_ & _ & _ & G4 & _). rewrite remove_keys; [apply remove_keys; exact G4|]. rewrite remove_keys; exact G4.
Qed.
Lemma mfind_same {A} k (m : list (Z * A)) : mfind k m = map_find k m.
Proof. induction m as [|(k', v) m IH]; [reflexivity|]. cbn. rewrite Z.eqb_sym, IH. reflexivity. Qed.
Lemma connected_node g a b : good_graph g -> connected g a b -> In a (nodes g) -> In b (nodes g).
Proof. intros (_ & _ & _ & _ & _ & G6 & G7 & _) H Ha. induction H as [|b c i e H IH L J]; [exact Ha|]. apply G7, (G6 i e c L). destruct J as [(_ & <-)|(<- & _)]; unfold touches; auto. Qed.
Lemma graphToMosaic_ok g im out t turns fuel : good_graph g -> (forall n, In n (nodes g) -> In n (map fst (nodeEdges g))) -> nodes g <> [] -> (forall n, In n (nodes g) -> inty t n) ->
  wf_img im -> wf_img out -> sz im = sz out -> (length (nodes g) < turns)%nat -> (length (nodes g) < fuel)%nat ->
  exists res, graphToMosaic turns fuel t im g out = Some (Some (1, res)) /\ sz res = sz im /\ wf_img res /\
    forall x y z v o, pixel_is im x y z v -> pixel_is res x y z o -> (In v (nodes g) -> connected g v o /\ forall m, connected g v m -> o <= m) /\ (~ In v (nodes g) -> o = 0).
Proof.
  intros G K Ne T W Wo Es Ht Hf. destruct (labelize_ok g G K turns fuel Ht Hf) as (lut & E & (Sl & C)). unfold graphToMosaic. rewrite E. cbn [fuel_bind].
  assert (Hl : forall k l, map_find k lut = Some l -> inty t l). { intros k l Hk. apply (proj1 (C k)) in Hk as (Hn & Hc & _). apply T. eapply connected_node; eassumption. }
  assert (Hne : lut <> []). { intros ->. destruct (nodes g) as [|n r]; [congruence|]. apply (proj2 (C n)); [left; reflexivity|reflexivity]. }
  assert (Hin : forall k l, In (k, l) lut -> map_find k lut = Some l). { intros k l H. rewrite <- mfind_same. apply msorted_In; [exact Sl|exact H]. }
  destruct (applyLookup_gen_ok t lut 0 im out W Wo Es Hne) as (A & _). rewrite A; [|intros k v H; apply Hin, Hl in H; apply H].
  eexists. split; [reflexivity|]. split; [cbn; congruence|]. split. { split; cbn [sz pixs]; [apply Wo|]. rewrite map_length, <- Es. apply W. }
  intros x y z v o (_ & P) (_ & Q). cbn [sz pixs] in Q. rewrite <- Es, rd_map, P in Q. cbn in Q. injection Q as <-. rewrite mfind_same. split.
  - intros Hn. destruct (map_find v lut) as [l|] eqn:F; [|destruct (proj2 (C v) Hn F)]. rewrite wrap_id by (eapply Hl; exact F). apply (proj1 (C v)) in F. tauto.
  - intros Hn. destruct (map_find v lut) as [l|] eqn:F; [|reflexivity]. apply (proj1 (C v)) in F. tauto.
Qed.
