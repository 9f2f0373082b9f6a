(** Histories of graphs; labels of the nodes. *)
From Verif Require Export Proofs.GraphProofs.

Lemma do_op_ok g o : good_graph g -> sound_op g o -> exists g', do_op g o = Some g' /\ good_graph g' /\ meant g o g'.
Proof.
  intros G HS. destruct o as [|n|n v|e c|i|a b|e|n|th|th]; cbn [do_op sound_op] in *.
  - exists graph0. split; [reflexivity|]. split; [apply graph0_good|]. intros i e (H & _). apply rd_In in H. destruct H.
  - eexists. split; [reflexivity|]. split; [apply addNode_good; exact G|]. split; [|split; [intros i e; split; [intros L; split; [exact L|auto]|intros (L & _); exact L]|reflexivity]]. intros m. apply set_insert_In.
  - eexists. split; [reflexivity|]. split; [apply addNode_val_good; exact G|]. split; [|split; [intros i e; split; [intros L; split; [exact L|auto]|intros (L & _); exact L]|]]. { intros m. apply set_insert_In. } intros m. apply map_find_set.
  - eexists. split; [reflexivity|]. split; [apply addEdge_good; assumption|apply addEdge_meant; exact HS].
  - eexists. split; [reflexivity|]. split; apply removeEdge_ok; exact G.
  - eexists. split; [reflexivity|]. destruct (removeFind_ok g (Edge a b 1) G) as (G' & M & _). split; [exact G'|exact M].
  - eexists. split; [reflexivity|]. split; apply removeFind_ok; exact G.
  - destruct (removeNodeEdges_ok g n G HS) as (g' & E & G' & M & _). exists g'. auto.
  - eexists. split; [reflexivity|]. destruct (remove_if_ok (fun e => th <? wt e) g G) as (G' & M & Nd & _). split; [exact G'|]. split; [|exact Nd]. intros i e. rewrite (M i e). cbn. rewrite Z.ltb_lt. reflexivity.
  - eexists. split; [reflexivity|]. destruct (remove_if_ok (fun e => wt e <? th) g G) as (G' & M & Nd & _). split; [exact G'|]. split; [|exact Nd]. intros i e. rewrite (M i e). cbn. rewrite Z.ltb_lt. reflexivity.
Qed.

(** Every edge after an operation was there before or has been added. *)
Lemma meant_edges g o g' i e : meant g o g' -> live g' i e -> live g i e \/ exists c, o = OAddEdge e c.
Proof.
  destruct o as [|n|n v|f c|j|a b|f|n|th|th]; cbn [meant]; intros M L.
  - exfalso. exact (M _ _ L).
  - left. apply (proj1 (proj2 M) i e). exact L.
  - left. apply (proj1 (proj2 M) i e). exact L.
  - destruct M as [(_ & ->)|(_ & _ & M)]; [auto|]. apply M in L as [L|(_ & ->)]; [auto|right; exists c; reflexivity].
  - left. apply (proj1 M i e). exact L.
  - left. apply (proj1 M i e). exact L.
  - left. apply (proj1 M i e). exact L.
  - left. apply (proj1 M i e). exact L.
  - left. apply (proj1 M i e). exact L.
  - left. apply (proj1 M i e). exact L.
Qed.
Lemma live_fun g i e f : live g i e -> live g i f -> e = f. Proof. intros (A & _) (B & _). congruence. Qed.
Lemma joins_trans e f a b c d : joins e a b -> joins e c d -> joins f a b -> joins f c d.
Proof. unfold joins. intuition congruence. Qed.
Lemma simple_keeps (P : Z -> edge -> Prop) g g' : keeps P g g' -> simple g -> simple g'.
Proof. intros K S i j e f a b Li Lj. apply S; [apply (K i e); exact Li|apply (K j f); exact Lj]. Qed.
Lemma meant_simple g o g' : checked o -> meant g o g' -> simple g -> simple g'.
Proof.
  intros C M S. destruct o as [|n|n v|x c|j|a b|x|n|th|th]; cbn [meant checked] in *; try (eapply simple_keeps; [first [apply (proj1 M)|apply (proj1 (proj2 M))]|exact S]).
  - intros i j e f a b L. exfalso. exact (M _ _ L).
  - destruct M as [(_ & ->)|(Nx & _ & M)]; [exact S|]. intros i j e f a b Li Lj Je Jf. apply M in Li, Lj. destruct Li as [Li|(-> & ->)], Lj as [Lj|(-> & ->)].
    + eapply S; eassumption.
    + exfalso. apply Nx. split; [exact C|]. exists i, e. split; [exact Li|]. apply (joins_trans x e a b); [exact Jf|left; auto|exact Je].
    + exfalso. apply Nx. split; [exact C|]. exists j, f. split; [exact Lj|]. apply (joins_trans x f a b); [exact Je|left; auto|exact Jf].
    + reflexivity.
Qed.

Lemma history l : forall g, Forall loopless l -> good_graph g -> (forall i e, live g i e -> src e <> tgt e) ->
  exists g', run l g = Some g' /\ good_graph g' /\ (forall i e, live g' i e -> src e <> tgt e) /\ (Forall checked l -> simple g -> simple g').
Proof.
  induction l as [|o l IH]; intros g HL G NL; cbn [run fold_opt]; [exists g; auto|]. apply Forall_cons_iff in HL as (Ho & HL).
  destruct (do_op_ok g o G) as (g1 & E & G1 & M).
  { destruct o; cbn [sound_op loopless] in *; auto; [intros (A & B); congruence|]. intros i e L (A & B). apply (NL i e L). congruence. }
  rewrite E. destruct (IH g1 HL G1) as (g' & R & G' & NL' & S').
  { intros i e L. destruct (meant_edges g o g1 i e M L) as [L0|(c & ->)]; [apply (NL i e L0)|exact Ho]. }
  exists g'. split; [exact R|]. split; [exact G'|]. split; [exact NL'|]. intros C S. apply Forall_cons_iff in C as (C1 & C). apply S'; [exact C|]. eapply meant_simple; eassumption.
Qed.

(** ** Labels *)
Lemma connected_trans g a b c : connected g a b -> connected g b c -> connected g a c.
Proof. intros H. induction 1; [exact H|]. eapply conn_step; eassumption. Qed.
Lemma joins_sym e a b : joins e a b -> joins e b a. Proof. unfold joins. tauto. Qed.
Lemma connected_sym g a b : connected g a b -> connected g b a.
Proof.
  induction 1 as [|b c i e H IH L J]; [constructor|]. eapply connected_trans; [|exact IH]. eapply conn_step; [constructor|exact L|apply joins_sym; exact J].
Qed.
Definition adj (g : graph) (a b : Z) : Prop := exists i e, live g i e /\ joins e a b.

Section Labels.
Variables (g : graph) (G : good_graph g) (HK : incl (nodes g) (map fst (nodeEdges g))).

Lemma live_nodes i e n : live g i e -> touches e n -> In n (nodes g).
Proof. intros L T. destruct G as (_ & _ & _ & _ & _ & G6 & G7 & _). apply G7. eapply G6; eassumption. Qed.
Lemma adj_nodes a b : adj g a b -> In a (nodes g) /\ In b (nodes g).
Proof. intros (i & e & L & J). split; apply (live_nodes i e); auto; unfold joins, touches in *; tauto. Qed.

Definition gone (nl nl' : list Z) (x : Z) : Prop := In x nl /\ ~ In x nl'.
(** What a call started at [ind] does to the state. *)
Definition spread (lbl ind : Z) (st st' : list (Z * Z) * list Z) : Prop :=
  incl (snd st') (snd st) /\ increasing (snd st') /\ (increasing (map fst (fst st)) -> increasing (map fst (fst st'))) /\
  (forall x, gone (snd st) (snd st') x -> map_find x (fst st') = Some lbl /\ connected g ind x /\ forall y, adj g x y -> ~ In y (snd st')) /\
  (forall x, ~ gone (snd st) (snd st') x -> map_find x (fst st') = map_find x (fst st)).

Lemma in_dec_Z (x : Z) l : In x l \/ ~ In x l. Proof. destruct (in_dec Z.eq_dec x l); auto. Qed.
Lemma spread_trans lbl ind st st1 st2 : spread lbl ind st st1 -> spread lbl ind st1 st2 -> spread lbl ind st st2.
Proof.
  intros (A1 & A2 & A3 & A4 & A5) (B1 & B2 & B3 & B4 & B5). split; [intros x Hx; apply A1, B1; exact Hx|]. split; [exact B2|]. split; [auto|]. split.
  - intros x (H1 & H2). destruct (in_dec_Z x (snd st1)) as [Hx|Hx].
    + apply B4. split; assumption.
    + rewrite B5 by (intros (Hx' & _); contradiction). destruct (A4 x (conj H1 Hx)) as (E & C & Ad). split; [exact E|]. split; [exact C|]. intros y Hy Hin. apply (Ad y Hy). apply B1. exact Hin.
  - intros x Hx. rewrite B5, A5; [reflexivity| |].
    + intros (H1 & H2). apply Hx. split; [exact H1|]. intros H. apply H2, B1. exact H.
    + intros (H1 & H2). apply Hx. split; [apply A1; exact H1|exact H2].
Qed.
Lemma spread_refl lbl ind st : increasing (snd st) -> spread lbl ind st st.
Proof. intros H. split; [intros x; auto|]. split; [exact H|]. split; [auto|]. split; [intros x (A & B); contradiction|auto]. Qed.

Lemma shorter (l l' : list Z) : incl l' l -> increasing l' -> increasing l -> (length l' <= length l)%nat.
Proof. intros I S S'. apply NoDup_incl_length; [apply increasing_NoDup; exact S|exact I]. Qed.

Lemma propagate_ok lbl fuel : forall ind st, increasing (snd st) -> incl (snd st) (nodes g) -> (length (snd st) < fuel)%nat ->
  exists st', propagateLabel fuel g lbl st ind = Some (Some st') /\ spread lbl ind st st' /\ ~ In ind (snd st').
Proof.
  induction fuel as [|fuel IH]; intros ind st HS HI Hf; [lia|]. cbn [propagateLabel]. destruct (set_mem ind (snd st)) eqn:M; cbn [negb].
  2:{ exists st. split; [reflexivity|]. split; [apply spread_refl; exact HS|]. rewrite <- set_mem_In. congruence. }
  apply set_mem_In in M. destruct (map_find ind (nodeEdges g)) as [l|] eqn:F; [|exfalso; apply (map_find_keys ind (nodeEdges g)); [apply HK, HI; exact M|exact F]]. cbn [option_bind].
  assert (El : l = edges_at ind (edges g)) by (rewrite <- (proj1 (proj2 G)); unfold list_at; rewrite F; reflexivity).
  set (st1 := (map_set ind lbl (fst st), set_erase ind (snd st))).
  assert (S1 : increasing (snd st1)) by (apply set_erase_sorted; exact HS).
  assert (I1 : incl (snd st1) (snd st)) by (intros x Hx; apply set_erase_In in Hx; apply Hx).
  assert (L1 : (length (snd st1) < fuel)%nat).
  { assert (length (ind :: snd st1) <= length (snd st))%nat; [|cbn in *; lia]. apply NoDup_incl_length.
    - constructor; [|apply increasing_NoDup; exact S1]. intros Hx. apply set_erase_In in Hx. tauto.
    - intros x [<-|Hx]; [exact M|apply I1; exact Hx]. }
  assert (N1 : ~ In ind (snd st1)) by (intros Hx; apply set_erase_In in Hx; tauto).
  (* the edges at [ind] *)
  assert (Fold : forall r s, (forall i, In i r -> In i l) -> increasing (snd s) -> incl (snd s) (snd st1) ->
    exists s', fold_fuel (fun st i => option_bind (rd (edges g) i) (fun e =>
        if negb (src e =? ind) then propagateLabel fuel g lbl st (src e) else if negb (tgt e =? ind) then propagateLabel fuel g lbl st (tgt e) else Some (Some st))) r s = Some (Some s') /\
      spread lbl ind s s' /\ forall i e y, In i r -> live g i e -> joins e ind y -> ~ In y (snd s')).
  { induction r as [|i r IHr]; intros s Hr Ss Is; cbn [fold_fuel].
    - exists s. split; [reflexivity|]. split; [apply spread_refl; exact Ss|]. intros i e y [].
    - assert (Hi : In i l) by (apply Hr; left; reflexivity). rewrite El in Hi. apply edges_at_In in Hi as (e & E & A & T). rewrite E. cbn [option_bind].
      assert (Lv : live g i e) by (split; [exact E|apply active_live; exact A]).
      assert (Step : exists s1, (if negb (src e =? ind) then propagateLabel fuel g lbl s (src e) else if negb (tgt e =? ind) then propagateLabel fuel g lbl s (tgt e) else Some (Some s)) = Some (Some s1) /\
        spread lbl ind s s1 /\ forall y, joins e ind y -> ~ In y (snd s1)).
      { assert (Ls : (length (snd s) < fuel)%nat) by (pose proof (shorter (snd st1) (snd s) Is Ss S1); lia).
        assert (Isn : incl (snd s) (nodes g)) by (intros x Hx; apply HI, I1, Is; exact Hx).
        assert (Call : forall m, joins e ind m -> (forall y, joins e ind y -> y = m) -> exists s1, propagateLabel fuel g lbl s m = Some (Some s1) /\ spread lbl ind s s1 /\ forall y, joins e ind y -> ~ In y (snd s1)).
        { intros m Jm Um. destruct (IH m s Ss Isn Ls) as (s1 & E1 & (A1 & A2 & A3 & A4 & A5) & Nm). exists s1. split; [exact E1|]. split; [|intros y Hy; rewrite (Um y Hy); exact Nm].
          split; [exact A1|]. split; [exact A2|]. split; [exact A3|]. split; [|exact A5]. intros x Hx. destruct (A4 x Hx) as (B1 & B2 & B3). split; [exact B1|]. split; [|exact B3].
          eapply connected_trans; [|exact B2]. eapply conn_step; [constructor|exact Lv|exact Jm]. }
        destruct (Z.eqb_spec (src e) ind) as [Es|Ns]; cbn [negb].
        - destruct (Z.eqb_spec (tgt e) ind) as [Et|Nt]; cbn [negb].
          + exists s. split; [reflexivity|]. split; [apply spread_refl; exact Ss|]. intros y J Hy. assert (y = ind) by (unfold joins in J; intuition congruence). subst y. apply N1, Is. exact Hy.
          + apply Call; [left; auto|]. intros y J. unfold joins in J. intuition congruence.
        - assert (tgt e = ind) by (unfold touches in T; intuition congruence). apply Call; [right; auto|]. intros y J. unfold joins in J. intuition congruence. }
      destruct Step as (s1 & E1 & Sp1 & N1'). rewrite E1. cbn [fuel_bind]. pose proof Sp1 as (A1 & A2 & _).
      destruct (IHr s1) as (s' & E2 & Sp2 & N2).
      + intros j Hj. apply Hr. right. exact Hj.
      + exact A2.
      + intros x Hx. apply Is, A1. exact Hx.
      + exists s'. split; [exact E2|]. split; [eapply spread_trans; eassumption|]. intros j f y [<-|Hj] Lf Jf.
        * assert (f = e) by (eapply live_fun; eassumption). subst f. intros Hy. apply (N1' y Jf). apply (proj1 Sp2). exact Hy.
        * exact (N2 j f y Hj Lf Jf). }
  destruct (Fold l st1) as (st' & E' & Sp & NA); [auto|exact S1|intros x; auto|]. exists st'. split; [exact E'|]. pose proof Sp as (A1 & A2 & A3 & A4 & A5).
  assert (Ni : ~ In ind (snd st')) by (intros H; apply N1, A1; exact H). split; [|exact Ni].
  split; [intros x Hx; apply I1, A1; exact Hx|]. split; [exact A2|]. split.
  { intros Hi. apply A3. unfold st1. cbn [fst]. rewrite map_set_keys. apply set_insert_sorted. exact Hi. }
  split.
  - intros x (H1 & H2). destruct (Z.eq_dec x ind) as [->|Nx].
    + rewrite A5 by (intros (H & _); contradiction). unfold st1. cbn [fst]. rewrite map_find_set, Z.eqb_refl. split; [reflexivity|]. split; [constructor|].
      intros y (i & e & L & J). apply (NA i e y); [|exact L|exact J]. rewrite El. apply edges_at_In. exists e. destruct L as (L1' & L2). split; [exact L1'|]. split; [apply active_live; exact L2|]. unfold joins, touches in *. tauto.
    + apply A4. split; [apply set_erase_In; auto|exact H2].
  - intros x Hx. destruct (Z.eq_dec x ind) as [->|Nx]; [exfalso; apply Hx; split; assumption|]. rewrite A5.
    + unfold st1. cbn [fst]. rewrite map_find_set. destruct (Z.eqb_spec x ind); [contradiction|reflexivity].
    + intros (H1 & H2). apply Hx. split; [apply I1; exact H1|exact H2].
Qed.

Lemma closed_connected (P : Z -> Prop) : (forall a b, P a -> adj g a b -> P b) -> forall a b, P a -> connected g a b -> P b.
Proof. intros H a b Pa C. induction C as [|b c i e C IH L J]; [exact Pa|]. apply (H b); [exact IH|]. exists i, e. auto. Qed.

Lemma label_loop_ok fuel : (length (nodes g) < fuel)%nat -> forall turns st, (length (snd st) < turns)%nat -> increasing (snd st) -> incl (snd st) (nodes g) -> increasing (map fst (fst st)) ->
  (forall x y, gone (nodes g) (snd st) x -> adj g x y -> ~ In y (snd st)) ->
  (forall x, gone (nodes g) (snd st) x -> exists l, map_find x (fst st) = Some l /\ connected g x l /\ forall m, connected g x m -> l <= m) ->
  (forall x, ~ gone (nodes g) (snd st) x -> map_find x (fst st) = None) ->
  exists lookup, label_loop turns fuel g st = Some (Some lookup) /\ component_labels g lookup.
Proof.
  intros Hf turns. induction turns as [|turns IH]; intros st Ht HS HI HM HC HL HN; [lia|]. cbn [label_loop]. destruct (snd st) as [|n rest] eqn:En.
  - exists (fst st). split; [reflexivity|]. split; [exact HM|]. intros n. split.
    + intros l Hl. destruct (in_dec_Z n (nodes g)) as [Hn|Hn]; [|rewrite HN in Hl by (intros (H & _); contradiction); discriminate].
      destruct (HL n) as (l' & E & H); [split; [exact Hn|auto]|]. assert (l' = l) by congruence. subst. auto.
    + intros Hn. destruct (HL n) as (l' & E & H); [split; [exact Hn|auto]|]. congruence.
  - rewrite <- En in *. assert (Hn : In n (snd st)) by (rewrite En; left; reflexivity).
    destruct (propagate_ok n fuel n st HS HI) as (st' & E & (A1 & A2 & A3 & A4 & A5) & Nn); [pose proof (shorter (nodes g) (snd st) HI HS (proj1 (proj2 (proj2 G)))); lia|]. rewrite E. cbn [fuel_bind]. apply IH.
    + assert (length (n :: snd st') <= length (snd st))%nat; [|cbn in *; lia]. apply NoDup_incl_length; [constructor; [exact Nn|apply increasing_NoDup; exact A2]|]. intros x [<-|Hx]; [exact Hn|apply A1; exact Hx].
    + exact A2.
    + intros x Hx. apply HI, A1. exact Hx.
    + auto.
    + intros x y (H1 & H2) Hxy. destruct (in_dec_Z x (snd st)) as [Hx|Hx]; [apply (A4 x (conj Hx H2)); exact Hxy|]. intros Hy. apply (HC x y (conj H1 Hx) Hxy). apply A1. exact Hy.
    + intros x (H1 & H2). destruct (in_dec_Z x (snd st)) as [Hx|Hx].
      * destruct (A4 x (conj Hx H2)) as (F & C & _). exists n. split; [exact F|]. split; [apply connected_sym; exact C|]. intros m Cm.
        assert (Hm : In m (snd st)).
        { assert (Hmn : In m (nodes g)). { destruct Cm as [|b c i e Cm L J]; [exact H1|]. apply (live_nodes i e); [exact L|]. unfold joins, touches in *. tauto. }
          destruct (in_dec_Z m (snd st)) as [|Nm]; [assumption|]. exfalso. apply connected_sym in Cm.
          assert (K : gone (nodes g) (snd st) x). { apply (closed_connected (fun z => gone (nodes g) (snd st) z)) with (a := m); [|split; assumption|exact Cm]. intros a b Ha Hab. split; [apply (adj_nodes a b Hab)|exact (HC a b Ha Hab)]. }
          apply (proj2 K). exact Hx. }
        rewrite En in Hm, HS. apply StronglySorted_inv in HS as (_ & HF). rewrite Forall_forall in HF. destruct Hm as [<-|Hm]; [lia|]. pose proof (HF m Hm). lia.
      * destruct (HL x (conj H1 Hx)) as (l & F & C). exists l. split; [|exact C]. rewrite A5; [exact F|]. intros (H & _). contradiction.
    + intros x Hx. rewrite A5.
      * apply HN. intros (H1 & H2). apply Hx. split; [exact H1|]. intros H. apply H2, A1. exact H.
      * intros (H1 & H2). apply Hx. split; [apply HI; exact H1|exact H2].
Qed.

Lemma labelize_ok turns fuel : (length (nodes g) < turns)%nat -> (length (nodes g) < fuel)%nat -> exists lookup, labelizeNodes turns fuel g = Some (Some lookup) /\ component_labels g lookup.
Proof.
  intros Ht Hf. unfold labelizeNodes. apply label_loop_ok; cbn [fst snd]; auto.
  - apply G.
  - intros x; auto.
  - constructor.
  - intros x y (A & B). contradiction.
  - intros x (A & B). contradiction.
Qed.
End Labels.
