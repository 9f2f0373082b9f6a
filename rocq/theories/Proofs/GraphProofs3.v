(** Minimum spanning trees. *)
From Verif Require Export Proofs.GraphProofs2.

Lemma linked_trans S a b c : linked S a b -> linked S b c -> linked S a c.
Proof. intros H. induction 1; [exact H|]. eapply link_step; eassumption. Qed.
Lemma linked_one S e a b : In e S -> joins e a b -> linked S a b.
Proof. intros H J. eapply link_step; [constructor|exact H|exact J]. Qed.
Lemma linked_sym S a b : linked S a b -> linked S b a.
Proof. induction 1 as [|b c e H IH L J]; [constructor|]. eapply linked_trans; [|exact IH]. apply (linked_one S e); [exact L|apply joins_sym; exact J]. Qed.
Lemma linked_incl S S' a b : incl S S' -> linked S a b -> linked S' a b.
Proof. intros I. induction 1 as [|b c e H IH L J]; [constructor|]. eapply link_step; [exact IH|apply I; exact L|exact J]. Qed.
Lemma linked_map S S' a b : (forall e x y, In e S -> joins e x y -> linked S' x y) -> linked S a b -> linked S' a b.
Proof. intros H. induction 1 as [|b c e L IH He J]; [constructor|]. eapply linked_trans; [exact IH|eapply H; eassumption]. Qed.
Lemma edge_dec (e f : edge) : {e = f} + {e <> f}.
Proof. decide equality; apply Z.eq_dec. Qed.
Lemma weight_app a b : weight (a ++ b) = weight a + weight b.
Proof. unfold weight. induction a as [|e a IH]; cbn; [reflexivity|]. lia. Qed.
Lemma weight_nonneg S : (forall e, In e S -> 0 <= wt e) -> 0 <= weight S.
Proof. intros H. induction S as [|e S IH]; [cbn; lia|]. change (weight (e :: S)) with (wt e + weight S). pose proof (H e (or_introl eq_refl)). assert (0 <= weight S); [|lia]. apply IH. intros f Hf. apply H. right. exact Hf. Qed.
Lemma weight_remove f S : (forall e, In e S -> 0 <= wt e) -> In f S -> weight (remove edge_dec f S) + wt f <= weight S.
Proof.
  intros H. assert (K : forall S, (forall e, In e S -> 0 <= wt e) -> weight (remove edge_dec f S) <= weight S).
  { clear. induction S as [|e S IH]; intros H; [cbn; lia|]. assert (IH' := IH (fun x Hx => H x (or_intror Hx))). pose proof (H e (or_introl eq_refl)). cbn [remove]. destruct (edge_dec f e); [change (weight (e :: S)) with (wt e + weight S); lia|].
    change (wt e + weight (remove edge_dec f S) <= wt e + weight S). lia. }
  induction S as [|e S IH]; intros Hi; [destruct Hi|]. cbn [remove]. destruct (edge_dec f e) as [->|N].
  - pose proof (K S (fun x Hx => H x (or_intror Hx))). change (weight (e :: S)) with (wt e + weight S). lia.
  - destruct Hi as [->|Hi]; [contradiction|]. specialize (IH (fun x Hx => H x (or_intror Hx)) Hi). change (wt e + weight (remove edge_dec f S) + wt f <= wt e + weight S). lia.
Qed.
Lemma weight_incl T : forall S, NoDup T -> incl T S -> (forall e, In e S -> 0 <= wt e) -> weight T <= weight S.
Proof.
  induction T as [|e T IH]; intros S HN HI HW; [apply weight_nonneg; exact HW|]. apply NoDup_cons_iff in HN as (He & HN). pose proof (weight_remove e S HW (HI e (or_introl eq_refl))) as Wr.
  assert (weight T <= weight (remove edge_dec e S)); [|change (weight (e :: T)) with (wt e + weight T); lia]. apply IH; [exact HN| |].
  - intros f Hf. apply in_in_remove; [intros ->; contradiction|apply HI; right; exact Hf].
  - intros f Hf. apply in_remove in Hf as (Hf & _). apply HW. exact Hf.
Qed.

Section Tree.
Variables (g : graph) (G : good_graph g) (HW : forall i e, live g i e -> 0 <= wt e).
Variables (pick : nat -> list edge -> nat) (HP : legal_pick pick) (r : Z) (Hr : In r (map fst (nodeEdges g))).

Lemma push_ok n pq : In n (map fst (nodeEdges g)) -> exists L, push_edges g n pq = Some (pq ++ L) /\ (forall e, In e L <-> exists i, live g i e /\ touches e n) /\ (length L <= 2 * length (edges g))%nat.
Proof.
  intros Hn. unfold push_edges. destruct (map_find n (nodeEdges g)) as [l|] eqn:F; [|exfalso; apply (map_find_keys n (nodeEdges g)); assumption]. cbn [option_bind].
  assert (El : l = edges_at n (edges g)) by (rewrite <- (proj1 (proj2 G)); unfold list_at; rewrite F; reflexivity).
  assert (K : forall l pq, (forall i, In i l -> In i (edges_at n (edges g))) -> exists L, fold_opt (fun pq i => option_bind (rd (edges g) i) (fun e => Some (pq ++ [e]))) l pq = Some (pq ++ L) /\
    length L = length l /\ forall e, In e L <-> exists i, In i l /\ rd (edges g) i = Some e).
  { clear. induction l as [|i l IH]; intros pq H; cbn [fold_opt].
    - exists []. rewrite app_nil_r. split; [reflexivity|]. split; [reflexivity|]. intros e. split; [intros []|intros (i & [] & _)].
    - destruct (proj1 (edges_at_In n (edges g) i) (H i (or_introl eq_refl))) as (e & E & _). rewrite E. cbn [option_bind]. destruct (IH (pq ++ [e])) as (L & EL & Len & HL); [intros j Hj; apply H; right; exact Hj|].
      exists (e :: L). rewrite EL, <- app_assoc. split; [reflexivity|]. split; [cbn; lia|]. intros f. cbn [In]. rewrite HL. split.
      + intros [<-|(j & Hj & E')]; [exists i; auto|exists j; auto].
      + intros (j & [<-|Hj] & E'); [left; congruence|right; exists j; auto]. }
  destruct (K l pq) as (L & EL & Len & HL); [intros i; rewrite El; auto|]. exists L. split; [exact EL|]. split.
  - intros e. rewrite HL. split.
    + intros (i & Hi & E). rewrite El in Hi. apply edges_at_In in Hi as (e' & E' & A & T). assert (e' = e) by congruence. subst e'. exists i. split; [split; [exact E|apply active_live; exact A]|exact T].
    + intros (i & (E & N) & T). exists i. split; [|exact E]. rewrite El. apply edges_at_In. exists e. split; [exact E|]. split; [apply active_live; exact N|exact T].
  - rewrite Len, El, edges_at_ends. rewrite <- (Nat2Z.id (length (edges g))) at 2. rewrite <- zseq_length. generalize (zseq (Z.of_nat (length (edges g)))) as q. intros q. induction q as [|j q IHq]; [cbn; lia|].
    cbn [flat_map]. rewrite app_length, repeat_length. cbn [length]. assert (ends n (edges g) j <= 2)%nat; [|lia]. unfold ends, ends_at. destruct (rd (edges g) j) as [e|]; [|lia]. destruct (isActive e), (src e =? n), (tgt e =? n); cbn; lia.
Qed.

(** The exchange: a minimal edge [x] that leaves [V] can be had in place of some edge of [S]. *)
Lemma exchange V T S x u v : (forall n, In n V -> linked T r n) -> (forall e n, In e T -> touches e n -> In n V) -> In r V -> (exists i, live g i x) -> joins x u v -> In u V -> ~ In v V ->
  (forall i e a b, live g i e -> joins e a b -> In a V -> ~ In b V -> wt x <= wt e) -> connected g r v ->
  spans g r S -> incl T S -> exists S', spans g r S' /\ incl (T ++ [x]) S' /\ weight S' <= weight S.
Proof.
  intros HV HT Hr0 Hx Jx Hu Hv Min Cv (Hof & Hsp) HI. destruct (in_dec edge_dec x S) as [Hin|Hout].
  { exists S. split; [split; assumption|]. split; [|lia]. intros e He. apply in_app_iff in He as [He|[<-|[]]]; auto. }
  set (So := filter (fun e => negb (set_mem (src e) V) && negb (set_mem (tgt e) V)) S).
  assert (Cross : forall n, linked S v n -> (linked So v n /\ ~ In n V) \/ exists f a b, In f S /\ joins f a b /\ In a V /\ ~ In b V /\ linked So v b).
  { intros n. induction 1 as [|b c e L IH He J]; [left; split; [constructor|exact Hv]|]. destruct IH as [(Lo & Nb)|Q]; [|right; exact Q]. destruct (in_dec Z.eq_dec c V) as [Hc|Nc].
    - right. exists e, c, b. split; [exact He|]. split; [apply joins_sym; exact J|]. auto.
    - left. split; [|exact Nc]. eapply link_step; [exact Lo| |exact J]. apply filter_In. split; [exact He|]. apply andb_true_iff. rewrite !negb_true_iff, <- !not_true_iff_false, !set_mem_In. unfold joins in J. destruct J as [(-> & ->)|(-> & ->)]; auto. }
  destruct (Cross r) as [(_ & N)|(f & a & b & Hf & Jf & Ha & Nb & Lo)]; [apply linked_sym; apply Hsp; exact Cv|contradiction|].
  assert (Fo : ~ In f T). { intros H. apply Nb. apply (HT f b H). unfold joins, touches in *. tauto. }
  assert (Fso : ~ In f So). { intros H. apply filter_In in H as (_ & H). apply andb_true_iff in H as (H1 & H2). rewrite negb_true_iff, <- not_true_iff_false, set_mem_In in H1, H2. unfold joins in Jf. destruct Jf as [(E1 & E2)|(E1 & E2)]; congruence. }
  set (S' := x :: remove edge_dec f S). assert (IT : incl T S'). { intros e He. right. apply in_in_remove; [intros ->; contradiction|apply HI; exact He]. }
  assert (IS : incl So S'). { intros e He. right. apply in_in_remove; [intros ->; contradiction|]. apply filter_In in He. apply He. }
  exists S'. assert (Lab : linked S' a b).
  { apply (linked_trans S' a r); [apply linked_sym; apply (linked_incl T); [exact IT|apply HV; exact Ha]|]. apply (linked_trans S' r u); [apply (linked_incl T); [exact IT|apply HV; exact Hu]|].
    apply (linked_trans S' u v); [apply (linked_one S' x); [left; reflexivity|exact Jx]|]. apply (linked_incl So); [exact IS|exact Lo]. }
  split; [split|split].
  - intros e [<-|He]; [exact Hx|]. apply in_remove in He as (He & _). apply Hof. exact He.
  - intros n Cn. apply (linked_map S); [|apply Hsp; exact Cn]. intros e p q He Jpq. destruct (edge_dec e f) as [->|Ne]; [|apply (linked_one S' e); [right; apply in_in_remove; assumption|exact Jpq]].
    destruct Jf as [(F1 & F2)|(F1 & F2)], Jpq as [(P1 & P2)|(P1 & P2)]; subst; try exact Lab; apply linked_sym; exact Lab.
  - intros e He. apply in_app_iff in He as [He|[<-|[]]]; [apply IT; exact He|left; reflexivity].
  - assert (WS : forall e, In e S -> 0 <= wt e) by (intros e He; destruct (Hof e He) as (i & L); eapply HW; exact L). pose proof (weight_remove f S WS Hf) as Wr. destruct (Hof f Hf) as (i & Lf). pose proof (Min i f a b Lf Jf Ha Nb).
    change (weight S') with (wt x + weight (remove edge_dec f S)). lia.
Qed.

Lemma app_last_inv {A} (l1 : list A) e l2 T x : l1 ++ e :: l2 = T ++ [x] -> (l2 = [] /\ l1 = T /\ e = x) \/ exists l, l2 = l ++ [x] /\ T = l1 ++ e :: l.
Proof.
  intros H. destruct l2 as [|y l2] using rev_ind.
  - left. apply app_inj_tail in H as (-> & ->). auto.
  - right. exists l2. change (l1 ++ e :: l2 ++ [y]) with (l1 ++ (e :: l2) ++ [y]) in H. rewrite app_assoc in H. apply app_inj_tail in H as (<- & <-). auto.
Qed.

(** One more edge to a new node closes no cycle. *)
Lemma acyclic_leaf V T x u v : (forall e n, In e T -> touches e n -> In n V) -> joins x u v -> In u V -> ~ In v V -> acyclic T -> acyclic (T ++ [x]).
Proof.
  intros HT J Hu Hv Ac l1 e l2 E L. symmetry in E. apply app_last_inv in E as [(-> & -> & ->)|(l & -> & ->)].
  - rewrite app_nil_r in L. assert (K : forall a b, linked T a b -> a <> b -> In a V /\ In b V).
    { intros a b. induction 1 as [|b c e L' IH He J']; [congruence|]. intros N. assert (Hb : In b V) by (apply (HT e); [exact He|unfold joins, touches in *; tauto]). assert (Hc : In c V) by (apply (HT e); [exact He|unfold joins, touches in *; tauto]).
      destruct (Z.eq_dec a b) as [->|Nab]; [auto|]. split; [apply IH; exact Nab|exact Hc]. }
    destruct J as [(E1 & E2)|(E1 & E2)]; destruct (K _ _ L) as (A & B); congruence.
  - apply (Ac l1 e l eq_refl). set (pi := fun n => if n =? v then u else n).
    assert (K : forall a b, linked (l1 ++ l ++ [x]) a b -> linked (l1 ++ l) (pi a) (pi b)).
    { intros a b. induction 1 as [|b c f L' IH Hf Jf]; [constructor|]. rewrite app_assoc in Hf. apply in_app_iff in Hf as [Hf|[<-|[]]].
      - eapply link_step; [exact IH|exact Hf|]. assert (HfT : In f (l1 ++ e :: l)) by (apply in_app_iff in Hf as [Hf|Hf]; apply in_app_iff; [left|right; right]; exact Hf).
        assert (Hb : In b V) by (apply (HT f); [exact HfT|unfold joins, touches in *; tauto]). assert (Hc : In c V) by (apply (HT f); [exact HfT|unfold joins, touches in *; tauto]).
        unfold pi. destruct (Z.eqb_spec b v); [congruence|]. destruct (Z.eqb_spec c v); [congruence|]. exact Jf.
      - assert (pi b = u /\ pi c = u) as (Eb & Ec); [|rewrite Ec, <- Eb; exact IH]. assert (Nuv : u <> v) by congruence. unfold pi. unfold joins in *.
        destruct (Z.eqb_spec b v), (Z.eqb_spec c v); intuition congruence. }
    assert (He : In e (l1 ++ e :: l)) by (apply in_app_iff; right; left; reflexivity). specialize (K _ _ L).
    assert (Hs : In (src e) V) by (apply (HT e); [exact He|left; reflexivity]). assert (Ht : In (tgt e) V) by (apply (HT e); [exact He|right; reflexivity]).
    unfold pi in K. destruct (Z.eqb_spec (src e) v); [congruence|]. destruct (Z.eqb_spec (tgt e) v); [congruence|]. exact K.
Qed.

Lemma drop_In {A} (l : list A) : forall i e, nth_error l i = Some e -> forall f, In f l <-> f = e \/ In f (drop_at i l).
Proof.
  induction l as [|a l IH]; intros [|i] e E f; try discriminate; cbn in *.
  - injection E as ->. intuition congruence.
  - rewrite (IH i e E f). intuition congruence.
Qed.
Lemma drop_length {A} (l : list A) : forall i e, nth_error l i = Some e -> length l = S (length (drop_at i l)).
Proof. induction l as [|a l IH]; intros [|i] e E; try discriminate; cbn in *; [reflexivity|]. rewrite (IH i e E). reflexivity. Qed.

Definition unseen (V : list Z) : nat := length (filter (fun n => negb (set_mem n V)) (nodes g)).
Lemma unseen_less V n : In n (nodes g) -> ~ In n V -> (unseen (set_insert n V) < unseen V)%nat.
Proof.
  intros Hn Nn. unfold unseen. pose proof (increasing_NoDup _ (proj1 (proj2 (proj2 G)))) as ND. revert Hn ND. generalize (nodes g) as l. induction l as [|a l IH]; intros [] ND; apply NoDup_cons_iff in ND as (Ha & ND).
  - subst a. cbn [filter]. assert (set_mem n (set_insert n V) = true) as -> by (apply set_mem_In, set_insert_In; auto). assert (set_mem n V = false) as -> by (apply not_true_iff_false; rewrite set_mem_In; exact Nn). cbn [negb length].
    apply le_n_S. clear - Ha. induction l as [|b l IH]; [cbn; lia|]. cbn [filter]. assert (b <> n) by (intros ->; apply Ha; left; reflexivity). assert (IH' := IH ltac:(intros H'; apply Ha; right; exact H')).
    assert (set_mem b (set_insert n V) = set_mem b V) as ->. { apply eq_iff_eq_true. rewrite !set_mem_In, set_insert_In. intuition congruence. } destruct (negb (set_mem b V)); cbn; lia.
  - cbn [filter]. specialize (IH H ND). assert (a <> n) by (intros ->; contradiction). assert (set_mem a (set_insert n V) = set_mem a V) as ->. { apply eq_iff_eq_true. rewrite !set_mem_In, set_insert_In. intuition congruence. } destruct (negb (set_mem a V)); cbn; lia.
Qed.

(** The state of the loop. *)
Definition mst_inv (V : list Z) (pq : list edge) (m : graph) : Prop :=
  good_graph m /\ In r V /\ (forall n, In n V -> connected g r n /\ linked (edges m) r n) /\ (forall e n, In e (edges m) -> touches e n -> In n V) /\ of_graph g (edges m) /\
  (forall e, In e pq -> (exists i, live g i e) /\ exists n, touches e n /\ In n V) /\
  (forall i e n, live g i e -> touches e n -> In n V -> In e pq \/ forall k, touches e k -> In k V) /\
  NoDup (edges m) /\ acyclic (edges m) /\ (forall S', spans g r S' -> exists S, spans g r S /\ incl (edges m) S /\ weight S <= weight S') /\
  (forall n, In n (nodes m) <-> exists e, In e (edges m) /\ touches e n).

Lemma mst_loop_ok fuel : forall k V pq m, mst_inv V pq m -> (length pq + unseen V * (2 * length (edges g)) < fuel)%nat ->
  exists m', mst_loop fuel k pick g V pq m = Some (Some m') /\ good_graph m' /\ minimum_tree g r (edges m') /\ (forall n, In n (nodes m') <-> exists e, In e (edges m') /\ touches e n).
Proof.
  induction fuel as [|fuel IH]; intros k V pq m HI Hf; [lia|]. pose proof HI as (Gm & HrV & HV & HT & Hof & Hpq & Hall & HN & Hac & Hopt & Hnd). cbn [mst_loop]. destruct pq as [|e0 pq0] eqn:Epq.
  - exists m. split; [reflexivity|]. split; [exact Gm|]. split; [|exact Hnd].
    assert (Hc : forall n, connected g r n -> In n V). { intros n. induction 1 as [|b c i e C IHc L J]; [exact HrV|]. destruct (Hall i e b L) as [[]|H]; [unfold joins, touches in *; tauto|exact IHc|]. apply H. unfold joins, touches in *. tauto. }
    split; [split; [exact Hof|intros n C; apply HV, Hc; exact C]|]. split; [exact Hac|]. intros S' HS'. destruct (Hopt S' HS') as (S & (HSo & _) & HSi & HSw). assert (weight (edges m) <= weight S); [|lia].
    apply weight_incl; [exact HN|exact HSi|]. intros e He. destruct (HSo e He) as (i & L). eapply HW. exact L.
  - rewrite <- Epq in *. assert (Nz : pq <> []) by (rewrite Epq; discriminate). destruct (HP k pq Nz) as (x & Ex & Hmin). rewrite Ex. cbn [option_bind]. clear Epq e0 pq0.
    pose proof (drop_In pq _ x Ex) as HD. pose proof (drop_length pq _ x Ex) as HDl. set (pq' := drop_at (pick k pq) pq) in *.
    assert (Hxp : In x pq) by (eapply nth_error_In; exact Ex). destruct (Hpq x Hxp) as ((ix & Lx) & (w & Tw & HwV)).
    (* going to the new node [v] *)
    assert (Go : forall u v, joins x u v -> In u V -> ~ In v V ->
      exists m', option_bind (push_edges g v pq') (fun pq'' => mst_loop fuel (S k) pick g (set_insert v V) pq'' (addEdge m x false)) = Some (Some m') /\ good_graph m' /\ minimum_tree g r (edges m') /\ (forall n, In n (nodes m') <-> exists e, In e (edges m') /\ touches e n)).
    { intros u v J Hu Nv. assert (Tv : touches x v) by (unfold joins, touches in *; tauto). assert (Hvk : In v (map fst (nodeEdges g))) by (destruct G as (_ & _ & _ & _ & _ & G6 & _); eapply G6; eassumption).
      assert (Hvn : In v (nodes g)) by (destruct G as (_ & _ & _ & _ & _ & _ & G7 & _); apply G7; exact Hvk).
      destruct (push_ok v pq' Hvk) as (L & EL & HL & Len). rewrite EL. cbn [option_bind].
      assert (Em : edges (addEdge m x false) = edges m ++ [x]) by reflexivity.
      assert (Cv : connected g r v) by (eapply conn_step; [apply HV; exact Hu|exact Lx|exact J]).
      apply IH; [|pose proof (unseen_less V v Hvn Nv); rewrite app_length; nia].
      split; [apply addEdge_new; [exact Gm|apply Lx]|]. split; [apply set_insert_In; auto|]. rewrite Em. split; [|split; [|split; [|split; [|split; [|split; [|split; [|split]]]]]]].
      - intros n Hn. apply set_insert_In in Hn as [->|Hn].
        + split; [exact Cv|]. eapply link_step; [eapply (linked_incl (edges m)); [intros z Hz; apply in_app_iff; auto|apply HV; exact Hu]| |exact J]. apply in_app_iff. right. left. reflexivity.
        + split; [apply HV; exact Hn|]. eapply (linked_incl (edges m)); [intros z Hz; apply in_app_iff; auto|apply HV; exact Hn].
      - intros e n He Hn. apply set_insert_In. apply in_app_iff in He as [He|[<-|[]]]; [right; eapply HT; eassumption|]. unfold joins, touches in *. destruct J as [(E1 & E2)|(E1 & E2)], Hn as [Hn|Hn]; subst; auto.
      - intros e He. apply in_app_iff in He as [He|[<-|[]]]; [apply Hof; exact He|exists ix; exact Lx].
      - intros e He. apply in_app_iff in He as [He|He].
        + destruct (Hpq e) as (H1 & n & H2 & H3); [apply HD; right; exact He|]. split; [exact H1|]. exists n. split; [exact H2|]. apply set_insert_In. right. exact H3.
        + apply HL in He as (i & H1 & H2). split; [exists i; exact H1|]. exists v. split; [exact H2|]. apply set_insert_In. left. reflexivity.
      - intros i e n Le Tn Hn. apply set_insert_In in Hn as [->|Hn]; [left; apply in_app_iff; right; apply HL; exists i; auto|]. destruct (Hall i e n Le Tn Hn) as [Hp|Hk].
        + apply HD in Hp as [->|Hp]; [|left; apply in_app_iff; left; exact Hp]. right. intros q Hq. apply set_insert_In. unfold joins, touches in *. destruct J as [(E1 & E2)|(E1 & E2)], Hq as [Hq|Hq]; subst; auto.
        + right. intros q Hq. apply set_insert_In. right. apply Hk. exact Hq.
      - apply NoDup_app'; [exact HN|constructor; [intros []|constructor]|]. intros e He [<-|[]]. apply Nv. eapply HT; eassumption.
      - apply (acyclic_leaf V _ _ u v); assumption.
      - intros S' HS'. destruct (Hopt S' HS') as (S & HS & HSi & HSw). destruct (exchange V (edges m) S x u v) as (S2 & H1 & H2 & H3); auto; try (intros n Hn; apply HV; exact Hn); [exists ix; exact Lx| |exists S2; split; [exact H1|]; split; [exact H2|lia]].
        intros i e a b Le Jab Ha Nb. assert (Hp : In e pq). { destruct (Hall i e a Le) as [|K]; [unfold joins, touches in *; tauto|exact Ha|assumption|]. exfalso. apply Nb. apply K. unfold joins, touches in *. tauto. }
        pose proof (Hmin e Hp) as Q. unfold edge_lt in Q. lia.
      - intros n. cbn [addEdge andb nodes]. rewrite !set_insert_In, Hnd. split.
        + intros [->|[->|(e & He & Te)]]; [exists x|exists x|exists e]; rewrite in_app_iff; cbn; unfold touches; auto.
        + intros (e & He & Te). apply in_app_iff in He as [He|[<-|[]]]; [right; right; exists e; auto|]. destruct Te; auto. }
    destruct (set_mem (src x) V) eqn:Ms; cbn [negb].
    + apply set_mem_In in Ms. destruct (set_mem (tgt x) V) eqn:Mt; cbn [negb].
      * apply set_mem_In in Mt. apply IH; [|lia]. repeat (split; [assumption|]). split; [intros e He; apply Hpq; apply HD; right; exact He|]. split; [|auto].
        intros i e n Le Tn Hn. destruct (Hall i e n Le Tn Hn) as [Hp|Hk]; [|right; exact Hk]. apply HD in Hp as [->|Hp]; [|left; exact Hp]. right. intros q [<-|<-]; assumption.
      * apply (Go (src x)); [left; auto|exact Ms|rewrite <- set_mem_In; congruence].
    + assert (Ns : ~ In (src x) V) by (rewrite <- set_mem_In; congruence). apply (Go (tgt x)); [right; auto| |exact Ns]. destruct Tw; subst; [contradiction|assumption].
Qed.
End Tree.

Lemma graphMST_ok g fuel pick : good_graph g -> nodeEdges g <> [] -> (forall i e, live g i e -> 0 <= wt e) -> legal_pick pick -> (2 * length (edges g) * length (nodes g) < fuel)%nat ->
  exists r m, graphMST fuel pick g = Some (Some m) /\ In r (map fst (nodeEdges g)) /\ (forall n, In n (map fst (nodeEdges g)) -> r <= n) /\ good_graph (Graph (edgeNbr m) (nodes m) [] (edges m) (nodeEdges m)) /\ nodeValues m = nodeValues g /\
    minimum_tree g r (edges m) /\ (forall n, In n (nodes m) <-> exists e, In e (edges m) /\ touches e n).
Proof.
  intros G Nz HW HP Hf. unfold graphMST. destruct (nodeEdges g) as [|(r, lr) rest] eqn:E; [contradiction|]. rewrite <- E in *.
  assert (Hr : In r (map fst (nodeEdges g))) by (rewrite E; left; reflexivity). destruct (push_ok g G HW r [] Hr) as (L & EL & HL & Len). rewrite EL. cbn [app option_bind].
  pose proof G as (_ & _ & _ & G4 & _ & _ & G7 & _).
  destruct (mst_loop_ok g G HW pick HP r fuel 0 [r] L graph0) as (m & Em & Gm & Mt & Nd).
  - split; [apply graph0_good|]. split; [left; reflexivity|]. split; [intros n [<-|[]]; split; constructor|]. split; [intros e n []|]. split; [intros e []|]. split; [|split; [|split; [constructor|split; [|split]]]].
    + intros e He. apply HL in He as (i & Le & T). split; [exists i; exact Le|]. exists r. split; [exact T|left; reflexivity].
    + intros i e n Le T [<-|[]]. left. apply HL. exists i. auto.
    + intros l1 e l2 Q. destruct l1; discriminate.
    + intros S' HS. exists S'. split; [exact HS|]. split; [intros e []|lia].
    + intros n. cbn. split; [intros []|intros (e & [] & _)].
  - assert (unseen g [r] < length (nodes g))%nat; [|nia]. assert (unseen g (set_insert r []) < unseen g [])%nat by (apply (unseen_less g G HW); [apply G7; exact Hr|auto]). change (set_insert r []) with [r] in *.
    assert (unseen g [] <= length (nodes g))%nat; [|lia]. unfold unseen. clear. induction (nodes g) as [|a l IH]; cbn in *; lia.
  - rewrite Em. cbn [fuel_bind]. eexists r, _. split; [reflexivity|]. split; [exact Hr|]. split; [|split; [|split; [reflexivity|split; [exact Mt|exact Nd]]]].
    + intros n Hn. rewrite E in Hn, G4. cbn in Hn, G4. apply StronglySorted_inv in G4 as (_ & F). rewrite Forall_forall in F. destruct Hn as [<-|Hn]; [lia|]. pose proof (F n Hn). lia.
    + cbn [edgeNbr nodes edges nodeEdges]. destruct Gm as (A1 & A2 & A3 & A4 & A5 & A6 & A7 & A8). repeat (split; [first [assumption|constructor]|]). intros x Hx. cbn in Hx. destruct Hx.
Qed.

(** Sorting. *)
Lemma rebuild_ok l : forall g0, good_graph g0 -> (forall e, In e l -> ~ (src e = 0 /\ tgt e = 0)) ->
  let g' := fold_left (fun g e => addEdge g e false) l g0 in
  good_graph g' /\ edges g' = edges g0 ++ l /\ nodeValues g' = nodeValues g0 /\ (forall n, In n (nodes g') <-> In n (nodes g0) \/ exists e, In e l /\ touches e n).
Proof.
  induction l as [|e l IH]; intros g0 G H; cbn [fold_left].
  - rewrite app_nil_r. split; [exact G|]. split; [reflexivity|]. split; [reflexivity|]. intros n. split; [auto|]. intros [Hn|(e & [] & _)]. exact Hn.
  - destruct (IH (addEdge g0 e false)) as (I1 & I2 & I3 & I4); [apply addEdge_new; [exact G|apply H; left; reflexivity]|intros f Hf; apply H; right; exact Hf|]. split; [exact I1|]. split; [rewrite I2; cbn [addEdge andb edges]; rewrite <- app_assoc; reflexivity|]. split; [rewrite I3; reflexivity|].
    intros n. rewrite I4. cbn [addEdge andb nodes]. rewrite !set_insert_In. split.
    + intros [[->|[->|Hn]]|(f & Hf & T)]; [right; exists e; split; [left; reflexivity|right; reflexivity]|right; exists e; split; [left; reflexivity|left; reflexivity]|left; exact Hn|right; exists f; split; [right; exact Hf|exact T]].
    + intros [Hn|(f & [<-|Hf] & T)]; [auto| |right; exists f; auto]. destruct T; auto.
Qed.
Lemma rebuild_vals l : forall v g0, let g1 := fold_left (fun g e => addEdge g e false) l g0 in
  fold_left (fun g e => addEdge g e false) l (Graph (edgeNbr g0) (nodes g0) v (edges g0) (nodeEdges g0)) = Graph (edgeNbr g1) (nodes g1) v (edges g1) (nodeEdges g1).
Proof. induction l as [|e l IH]; intros v g0; cbn [fold_left]; [reflexivity|]. apply (IH v (addEdge g0 e false)). Qed.
Lemma sortEdges_ok sort g reverse : sorts sort -> (forall i e, rd (edges g) i = Some e -> live g i e) ->
  let g' := sortEdges sort g reverse in
  Permutation (edges g') (edges g) /\ StronglySorted (fun a b => if reverse then wt a <= wt b else wt b <= wt a) (edges g') /\
  good_graph (Graph (edgeNbr g') (nodes g') [] (edges g') (nodeEdges g')) /\ nodeValues g' = nodeValues g /\ forall n, In n (nodes g') <-> exists i e, live g i e /\ touches e n.
Proof.
  intros HS HL. unfold sortEdges, rebuild. set (l := if reverse then rev (sort edge_lt (rev (edges g))) else sort edge_lt (edges g)).
  assert (P : Permutation l (edges g)). { unfold l. destruct reverse; [|apply HS]. etransitivity; [symmetry; apply Permutation_rev|]. etransitivity; [apply HS|]. symmetry. apply Permutation_rev. }
  assert (So : StronglySorted (fun a b => if reverse then wt a <= wt b else wt b <= wt a) l).
  { assert (K : forall l, sorted_by edge_lt l -> StronglySorted (fun a b => wt b <= wt a) l).
    { clear. intros l. induction 1 as [|a l H IH F]; constructor; [exact IH|]. rewrite Forall_forall in *. intros b Hb. pose proof (F b Hb) as Q. cbn in Q. unfold edge_lt in Q. lia. }
    unfold l. destruct reverse; [|apply K, HS]. pose proof (K _ (proj2 (HS (rev (edges g))))) as Q. revert Q. generalize (sort edge_lt (rev (edges g))) as q. clear.
    assert (A : forall a (l : list edge), StronglySorted (fun a b => wt a <= wt b) l -> (forall b, In b l -> wt b <= wt a) -> StronglySorted (fun a b => wt a <= wt b) (l ++ [a])).
    { intros a. induction l as [|b l IH]; intros H Hb; cbn; [repeat constructor|]. apply StronglySorted_inv in H as (H & F). constructor; [apply IH; [exact H|intros c Hc; apply Hb; right; exact Hc]|]. rewrite Forall_forall in *. intros c Hc. apply in_app_iff in Hc as [Hc|[<-|[]]]; [apply F; exact Hc|apply Hb; left; reflexivity]. }
    induction q as [|a q IH]; intros H; cbn; [constructor|]. apply StronglySorted_inv in H as (H & F). apply A; [apply IH; exact H|]. intros b Hb. apply in_rev in Hb. rewrite Forall_forall in F. apply F. exact Hb. }
  clearbody l. change (Graph 0 [] (nodeValues g) [] []) with (Graph (edgeNbr graph0) (nodes graph0) (nodeValues g) (edges graph0) (nodeEdges graph0)). rewrite (rebuild_vals l (nodeValues g) graph0). cbn [edges nodes edgeNbr nodeEdges nodeValues].
  assert (HA : forall e, In e l -> ~ (src e = 0 /\ tgt e = 0)). { intros e He. apply (Permutation_in _ P) in He. apply In_rd in He as (i & _ & E). apply (HL i e E). }
  destruct (rebuild_ok l graph0 graph0_good HA) as (I1 & I2 & I3 & I4). fold graph0 in *. rewrite I2. cbn [graph0 edges app]. split; [exact P|]. split; [exact So|]. split; [|split; [reflexivity|]].
  - rewrite I2 in I1 || idtac. set (g1 := fold_left _ l graph0) in *. destruct g1 as [a b c d f]. cbn in *. subst c d. exact I1.
  - intros n. rewrite I4. cbn. split.
    + intros [[]|(e & He & T)]. apply (Permutation_in _ P) in He. apply In_rd in He as (i & _ & E). exists i, e. split; [apply HL; exact E|exact T].
    + intros (i & e & L & T). right. exists e. split; [|exact T]. apply (Permutation_in _ (Permutation_sym P)). eapply rd_In. apply L.
Qed.

Lemma sorted_ext (l : list Z) : forall l', increasing l -> increasing l' -> (forall n, In n l <-> In n l') -> l = l'.
Proof.
  induction l as [|a l IH]; intros [|b l'] H H' E; [reflexivity|exfalso; apply (proj2 (E b)); left; reflexivity|exfalso; apply (proj1 (E a)); left; reflexivity|].
  apply StronglySorted_inv in H as (H & F). apply StronglySorted_inv in H' as (H' & F'). rewrite Forall_forall in F, F'.
  assert (a = b) as <-. { destruct (proj1 (E a) (or_introl eq_refl)) as [|Ha]; [congruence|]. destruct (proj2 (E b) (or_introl eq_refl)) as [|Hb]; [congruence|]. pose proof (F b Hb). pose proof (F' a Ha). lia. }
  f_equal. apply IH; [exact H|exact H'|]. intros n. split; intros Hn.
  - destruct (proj1 (E n) (or_intror Hn)) as [<-|]; [|assumption]. pose proof (F a Hn). lia.
  - destruct (proj2 (E n) (or_intror Hn)) as [<-|]; [|assumption]. pose proof (F' a Hn). lia.
Qed.
