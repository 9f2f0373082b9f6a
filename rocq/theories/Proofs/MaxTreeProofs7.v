(** The max-tree: the recursive functions on the nodes. *)
From Verif Require Export Proofs.MaxTreeProofs6.

Local Notation "l # i" := (znth 0 l i) (at level 9).

(** First child and next brother. *)
Inductive forest := FNil | FCons (n : Z) (c r : forest).
Fixpoint labels (f : forest) : list Z := match f with FNil => [] | FCons n c r => n :: labels c ++ labels r end.

Section forests.
Variables (tr : mtree) (par : Z -> Z) (kids : Z -> list Z) (top : Z).
Local Notation lev := (znth 0 (mt_level tr)).
Hypothesis Hlens : length (mt_child tr) = length (mt_level tr) /\ length (mt_brother tr) = length (mt_level tr) /\ length (mt_crit tr) = length (mt_level tr).
Hypothesis Hcur : 2 <= curLabel tr.
Hypothesis Htop : forall m, node tr m -> lev m <= top.
Hypothesis Hpar : forall m, node tr m -> m <> 1 -> node tr (par m) /\ lev (par m) < lev m.
Hypothesis Hkids : forall m, node tr m -> sibs (znth 0 (mt_brother tr)) ((mt_child tr) # m) (kids m) /\ NoDup (kids m) /\
     forall c, In c (kids m) <-> node tr c /\ c <> 1 /\ par c = m.

Inductive frep : list Z -> forest -> Prop :=
| frep_nil : frep [] FNil
| frep_cons n l c r : node tr n -> n <> 1 -> frep (kids n) c -> frep l r -> frep (n :: l) (FCons n c r).

Lemma frep_exists d : forall l, (forall n, In n l -> node tr n /\ n <> 1 /\ top - lev n < Z.of_nat d) -> exists f, frep l f.
Proof using Htop Hkids Hpar.
  induction d as [|d IH].
  - intros l H. destruct l as [|n l]; [exists FNil; constructor|]. destruct (H n (or_introl eq_refl)) as (A & _ & B). specialize (Htop n A). exfalso. clear - B Htop. lia.
  - induction l as [|n l IHl]; intros H; [exists FNil; constructor|].
    destruct IHl as (r & Hr); [intros x Hx; apply H; right; exact Hx|]. destruct (H n (or_introl eq_refl)) as (A & B & C).
    destruct (IH (kids n)) as (c & Hc). { intros x Hx. apply (Hkids n A) in Hx as (Nx & N1 & E). destruct (Hpar x Nx N1) as (_ & L). rewrite E in L. split; [exact Nx|]. split; [exact N1|]. clear - C L. lia. }
    exists (FCons n c r). constructor; assumption.
Qed.

Lemma kids_forest m : node tr m -> exists f, frep (kids m) f.
Proof using Htop Hkids Hpar.
  intros Hm. apply (frep_exists (Z.to_nat (top - lev m))). intros n Hn. apply (Hkids m Hm) in Hn as (A & B & E). split; [exact A|]. split; [exact B|].
  destruct (Hpar n A B) as (_ & L). rewrite E in L. specialize (Htop n A). clear - L Htop. lia.
Qed.

Lemma frep_fun l f : frep l f -> forall f', frep l f' -> f = f'.
Proof using.
  intros H. induction H as [|n l c r A B Hc IHc Hr IHr]; intros f' H'; inversion H'; subst; [reflexivity|]. f_equal; [apply IHc|apply IHr]; assumption.
Qed.

Lemma anc_child n x : anc par n x -> x <> n -> node tr x -> exists n', In n' (kids n) /\ anc par n' x.
Proof using Hkids Hpar.
  intros H. induction H as [|x Hx H IH]; intros Nx Px; [contradiction|]. destruct (Hpar x Px Hx) as (Pp & _).
  destruct (Z.eq_dec (par x) n) as [E|E].
  - exists x. split; [|apply anc_self]. assert (node tr n) as Pn by (rewrite <- E; exact Pp). apply (Hkids n Pn). auto.
  - destruct (IH E Pp) as (n' & A & B). exists n'. split; [exact A|]. apply anc_up; assumption.
Qed.

Lemma labels_spec l f : frep l f -> forall x, In x (labels f) <-> node tr x /\ exists n, In n l /\ anc par n x.
Proof using Hkids Hpar.
  intros H. induction H as [|n l c r A B Hc IHc Hr IHr]; intros x; cbn [labels In].
  - split; [intros []|]. intros (_ & n & [] & _).
  - rewrite in_app_iff, IHc, IHr. split.
    + intros [<- |[(Px & n' & Hn & Ha)|(Px & n' & Hn & Ha)]].
      * split; [exact A|]. exists n. split; [auto|apply anc_self].
      * split; [exact Px|]. exists n. split; [auto|]. apply (Hkids n A) in Hn as (C & D & E). eapply anc_trans; [|exact Ha]. apply anc_up; [exact D|]. rewrite E. apply anc_self.
      * split; [exact Px|]. exists n'. auto.
    + intros (Px & n' & [<- |Hn] & Ha).
      * destruct (Z.eq_dec x n) as [-> |Nx]; [auto|]. right; left. split; [exact Px|]. apply anc_child; assumption.
      * right; right. split; [exact Px|]. exists n'. auto.
Qed.

Lemma labels_node l f x : frep l f -> In x (labels f) -> node tr x /\ x <> 1.
Proof using Hkids Hpar.
  intros H Hx. split; [apply (labels_spec l f H x); exact Hx|]. revert x Hx. induction H as [|n l c r A B Hc IHc Hr IHr]; intros x Hx; cbn [labels] in Hx; [contradiction|].
  destruct Hx as [<- |Hx]; [exact B|]. apply in_app_iff in Hx as [Hx|Hx]; auto.
Qed.

(** Brothers have no common descendant. *)
Lemma apart a b x : node tr a -> node tr b -> node tr x -> a <> 1 -> b <> 1 -> par a = par b -> a <> b -> anc par a x -> anc par b x -> False.
Proof using Hpar.
  assert (G : forall a b, node tr a -> node tr b -> a <> 1 -> b <> 1 -> par a = par b -> a <> b -> anc par a b -> False).
  { intros a0 b0 Na Nb A1 B1 E Ne H. apply anc_cases in H as [H|(_ & H)]; [contradiction|]. rewrite <- E in H.
    destruct (Hpar a0 Na A1) as (Np & L). destruct (anc_level (node tr) par lev Hpar _ _ H Np) as [Q|Q]; [rewrite <- Q in L; clear - L; lia|clear - Q L; lia]. }
  intros Na Nb Nx A1 B1 E Ne Ha Hb. destruct (anc_total par a b x Ha Hb) as [H|H]; [exact (G a b Na Nb A1 B1 E Ne H)|exact (G b a Nb Na B1 A1 (eq_sym E) (not_eq_sym Ne) H)].
Qed.

Lemma labels_nodup l f a : frep l f -> NoDup l -> (forall n, In n l -> par n = a) -> NoDup (labels f).
Proof using Hkids Hpar.
  intros H. revert a. induction H as [|n l c r A B Hc IHc Hr IHr]; intros a ND Hp; cbn [labels]; [constructor|].
  apply NoDup_cons_iff in ND as (Nn & ND). destruct (Hkids n A) as (_ & K2 & K3).
  assert (forall x, In x (labels c) -> x <> n /\ anc par n x) as D1.
  { intros x Hx. apply (labels_spec _ _ Hc) in Hx as (Px & n' & Hn & Ha). apply K3 in Hn as (C & D & E). split.
    - intros ->. destruct (Hpar n' C D) as (_ & L). rewrite E in L. destruct (anc_level (node tr) par lev Hpar _ _ Ha Px) as [<- |Q]; clear - L Q || clear - L; lia.
    - eapply anc_trans; [|exact Ha]. apply anc_up; [exact D|]. rewrite E. apply anc_self. }
  assert (forall x, In x (labels r) -> ~ anc par n x) as D2.
  { intros x Hx Hn. apply (labels_spec _ _ Hr) in Hx as (Px & n' & Hn' & Ha).
    assert (In n' (labels r)) as Hn''. { apply (labels_spec _ _ Hr). split; [|exists n'; split; [exact Hn'|apply anc_self]]. apply (anc_node (node tr) par lev Hpar _ _ Ha Px). }
    destruct (labels_node _ _ _ Hr Hn'') as (C & D). apply (apart n n' x); try assumption; [|intros ->; contradiction].
    rewrite (Hp n (or_introl eq_refl)), (Hp n' (or_intror Hn')). reflexivity. }
  constructor.
  - intros Hi. apply in_app_iff in Hi as [Hi|Hi]; [apply (D1 n Hi); reflexivity|]. apply (D2 n Hi). apply anc_self.
  - assert (NoDup (labels c)) as N1 by (apply (IHc n K2); intros x Hx; apply K3; exact Hx).
    assert (NoDup (labels r)) as N2 by (apply (IHr a ND); intros x Hx; apply Hp; right; exact Hx).
    assert (forall x, In x (labels c) -> ~ In x (labels r)) as Dj by (intros x Hx Hx'; apply (D2 x Hx'); apply D1; exact Hx).
    clear - N1 N2 Dj. induction (labels c) as [|x lc IH]; [exact N2|]. cbn [app]. apply NoDup_cons_iff in N1 as (Nx & N1). constructor.
    + intros Hi. apply in_app_iff in Hi as [Hi|Hi]; [contradiction|]. apply (Dj x (or_introl eq_refl) Hi).
    + apply IH; [exact N1|]. intros y Hy. apply Dj. right; exact Hy.
Qed.

Lemma kids_labels m f : node tr m -> frep (kids m) f -> NoDup (labels f) /\ ~ In m (labels f) /\ (forall x, In x (labels f) <-> node tr x /\ anc par m x /\ x <> m).
Proof using Hkids Hpar.
  intros Hm H. destruct (Hkids m Hm) as (_ & K2 & K3). split; [apply (labels_nodup _ _ m H K2); intros n Hn; apply K3; exact Hn|].
  assert (S : forall x, In x (labels f) <-> node tr x /\ anc par m x /\ x <> m).
  { intros x. rewrite (labels_spec _ _ H). split.
    - intros (Px & n & Hn & Ha). split; [exact Px|]. apply K3 in Hn as (C & D & E).
      assert (anc par m n) as Hmn by (apply anc_up; [exact D|]; rewrite E; apply anc_self). split; [eapply anc_trans; eassumption|].
      intros ->. destruct (Hpar n C D) as (_ & L). rewrite E in L. destruct (anc_level (node tr) par lev Hpar _ _ Ha Hm) as [<- |Q]; clear - L Q || clear - L; lia.
    - intros (Px & Ha & Nx). split; [exact Px|]. apply anc_child; assumption. }
  split; [|exact S]. intros Hi. apply S in Hi as (_ & _ & F). contradiction.
Qed.

(** ** updateCriteria *)
Variable k : ckind.
Fixpoint ftot (cr : list crit) (f : forest) (acc : crit) : crit :=
  match f with FNil => acc | FCons n c r => ftot cr r (c_merge k acc (ftot cr c (znth (0, 0) cr n))) end.

Lemma ftot_ext cr cr' f : (forall x, In x (labels f) -> znth (0, 0) cr' x = znth (0, 0) cr x) -> forall acc, ftot cr' f acc = ftot cr f acc.
Proof using.
  induction f as [|n c IHc r IHr]; intros H acc; [reflexivity|]. cbn [ftot labels] in *. rewrite IHr by (intros x Hx; apply H; right; apply in_or_app; auto).
  rewrite IHc by (intros x Hx; apply H; right; apply in_or_app; auto). rewrite (H n (or_introl eq_refl)). reflexivity.
Qed.

Lemma update_ok fuel : forall l f m c cr, frep l f -> sibs (znth 0 (mt_brother tr)) c l -> NoDup (labels f) -> node tr m -> ~ In m (labels f) ->
  length cr = length (mt_level tr) -> (length (labels f) < fuel)%nat ->
  exists cr', mt_update fuel k tr m c cr = Some (Some cr') /\ length cr' = length cr /\
    znth (0, 0) cr' m = ftot cr f (znth (0, 0) cr m) /\
    (forall x fx, In x (labels f) -> frep (kids x) fx -> znth (0, 0) cr' x = ftot cr fx (znth (0, 0) cr x)) /\
    (forall x, x <> m -> ~ In x (labels f) -> znth (0, 0) cr' x = znth (0, 0) cr x).
Proof using Hkids Hpar Hlens.
  induction fuel as [|fuel IH]; intros l f m c cr H Sb ND Hm Nm Lc F; [clear - F; lia|]. destruct Hlens as (L1 & L2 & L3).
  destruct H as [|n l cf r A B Hc Hr]; cbn [mt_update].
  - inversion Sb; subst. cbn [Z.eqb]. exists cr. split; [reflexivity|]. split; [reflexivity|]. split; [reflexivity|]. split; [intros x fx []|reflexivity].
  - inversion Sb as [|n' l' Nn Sb' E1 E2]; subst n' l' c. replace (n =? 0) with false by (clear - Nn; lia).
    unfold node, curLabel in A, Hm. rewrite (rd_znth 0 (mt_child tr)) by (clear - A L1; lia). cbn [option_bind].
    cbn [labels] in ND, Nm, F. apply NoDup_cons_iff in ND as (Nin & ND). cbn [length] in F. rewrite app_length in F.
    destruct (Hkids n A) as (K1 & K2 & K3).
    assert (NoDup (labels cf)) as Nc. { clear - ND. induction (labels cf) as [|x lc IH]; [constructor|]. cbn in ND. apply NoDup_cons_iff in ND as (Nx & ND). constructor; [intros Hi; apply Nx; apply in_or_app; auto|apply IH; exact ND]. }
    assert (NoDup (labels r)) as Nr. { clear - ND. induction (labels cf) as [|x lc IH]; [exact ND|]. cbn in ND. apply NoDup_cons_iff in ND as (Nx & ND). apply IH; exact ND. }
    assert (forall x, In x (labels cf) -> ~ In x (labels r)) as Dj.
    { clear - ND. induction (labels cf) as [|y lc IH]; intros x Hx; [contradiction|]. cbn in ND. apply NoDup_cons_iff in ND as (Nx & ND). destruct Hx as [<- |Hx]; [intros Hi; apply Nx; apply in_or_app; auto|apply IH; assumption]. }
    destruct (IH _ cf n ((mt_child tr) # n) cr Hc K1 Nc A (fun Hi => Nin (in_or_app _ _ _ (or_introl Hi))) Lc) as (cr1 & E1 & Lc1 & T1 & X1 & O1); [clear - F; lia|].
    rewrite E1. cbn [fuel_bind option_bind].
    assert (m <> n) as Nmn by (intros ->; apply Nm; left; reflexivity).
    assert (~ In m (labels cf)) as Nmc by (intros Hi; apply Nm; right; apply in_or_app; auto).
    assert (~ In m (labels r)) as Nmr by (intros Hi; apply Nm; right; apply in_or_app; auto).
    rewrite (@rd_znth crit (0, 0) cr1 m) by (clear - Hm Lc Lc1; lia). cbn [option_bind].
    rewrite (@rd_znth crit (0, 0) cr1 n) by (clear - A Lc Lc1; lia). cbn [option_bind].
    rewrite wr_upd by (clear - Hm Lc Lc1; lia). cbn [option_bind].
    rewrite (rd_znth 0 (mt_brother tr)) by (clear - A L2; lia). cbn [option_bind].
    set (cr2 := upd cr1 m _).
    assert (U2 : forall x, znth (0, 0) cr2 x = if x =? m then c_merge k (znth (0, 0) cr1 m) (znth (0, 0) cr1 n) else znth (0, 0) cr1 x).
    { intros x. unfold cr2. apply (@znth_upd' crit). clear - Hm Lc Lc1; lia. }
    destruct (IH _ r m ((mt_brother tr) # n) cr2 Hr Sb' Nr Hm Nmr) as (cr3 & E3 & Lc3 & T3 & X3 & O3); [unfold cr2; rewrite upd_length; clear - Lc Lc1; lia|clear - F; lia|].
    assert (forall x, In x (labels r) -> znth (0, 0) cr2 x = znth (0, 0) cr x) as Er.
    { intros x Hx. rewrite U2. destruct (Z.eqb_spec x m) as [-> |]; [contradiction|]. apply O1; [intros ->; apply Nin; apply in_or_app; auto|]. intros Hi. exact (Dj x Hi Hx). }
    exists cr3. split; [exact E3|]. split; [unfold cr2 in Lc3; rewrite upd_length in Lc3; clear - Lc3 Lc1; lia|]. split; [|split].
    + rewrite T3. cbn [ftot]. rewrite (ftot_ext cr cr2 r Er). rewrite U2, Z.eqb_refl, T1, (O1 m Nmn Nmc). reflexivity.
    + intros x fx Hx Hfx. cbn [labels] in Hx. destruct Hx as [<- |Hx].
      * rewrite (frep_fun _ _ Hc _ Hfx) in *. rewrite O3; [|congruence|intros Hi; apply Nin; apply in_or_app; auto]. rewrite U2. replace (n =? m) with false by (clear - Nmn; lia). exact T1.
      * apply in_app_iff in Hx as [Hx|Hx].
        -- rewrite O3; [|intros ->; contradiction|apply Dj; exact Hx]. rewrite U2. replace (x =? m) with false; [apply X1; assumption|]. symmetry. apply Z.eqb_neq. intros ->; contradiction.
        -- rewrite (X3 x fx Hx Hfx), (Er x Hx). apply ftot_ext. intros y Hy. apply Er. apply (labels_spec _ _ Hr). 
           destruct (proj1 (labels_spec _ _ Hr x) Hx) as (Px & n' & Hn' & Ha). apply (labels_spec _ _ Hfx) in Hy as (Py & n2 & Hn2 & Ha2). split; [exact Py|]. exists n'. split; [exact Hn'|].
           eapply anc_trans; [exact Ha|]. eapply anc_trans; [|exact Ha2]. apply (Hkids x Px) in Hn2 as (_ & D & E). apply anc_up; [exact D|]. rewrite E. apply anc_self.
    + intros x Nx Hx. cbn [labels] in Hx. rewrite O3; [|exact Nx|intros Hi; apply Hx; right; apply in_or_app; auto]. rewrite U2. replace (x =? m) with false by (clear - Nx; lia).
      apply O1; [intros ->; apply Hx; left; reflexivity|intros Hi; apply Hx; right; apply in_or_app; auto].
Qed.
End forests.
