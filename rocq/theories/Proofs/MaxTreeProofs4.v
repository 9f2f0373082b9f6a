(** The max-tree: the pixels put in the tree. *)
From Verif Require Export Proofs.MaxTreeProofs3.

Local Notation "l # i" := (znth 0 l i) (at level 9).

Section pixels.
Variables (t : ity) (mv : Z) (px : list Z) (N : Z) (adj : Z -> Z -> Prop) (co : Z -> Z * Z * Z) (k : ckind).
Hypothesis Ht : t = UINT8 \/ t = UINT16.
Hypothesis Hmv : 0 <= mv.
Hypothesis Hpx : forall p, 0 <= p < N -> mv <= px # p <= tmax t.
Hypothesis adj_sym : forall p q, adj p q -> adj q p.
Hypothesis adj_rng : forall p q, adj p q -> 0 <= p < N.
Local Notation mts := (mts t mv).

(** Two pixels joined at level [h]. *)
Inductive lk (h p : Z) : Z -> Prop :=
| lk_refl : 0 <= p < N -> h <= px # p -> lk h p p
| lk_step q r : lk h p q -> adj q r -> h <= px # r -> lk h p r.

Lemma lk_end h p q : lk h p q -> 0 <= q < N /\ h <= px # q.
Proof using adj_sym adj_rng. intros H. destruct H as [|q r H A B]; [auto|]. split; [exact (adj_rng _ _ (adj_sym _ _ A))|exact B]. Qed.
Lemma lk_start h p q : lk h p q -> 0 <= p < N /\ h <= px # p.
Proof using. intros H. induction H; assumption || (split; assumption). Qed.
Lemma lk_trans h p q r : lk h p q -> lk h q r -> lk h p r.
Proof using. intros H H'. induction H' as [|q' r' H' IH A B]; [exact H|]. eapply lk_step; eassumption. Qed.
Lemma lk_sym h p q : lk h p q -> lk h q p.
Proof using adj_sym adj_rng.
  intros H. induction H as [|q r H IH A B]; [apply lk_refl; assumption|]. destruct (lk_end _ _ _ H) as (Q1 & Q2).
  eapply lk_trans; [|exact IH]. eapply lk_step; [apply lk_refl; [exact (adj_rng _ _ (adj_sym _ _ A))|exact B]|apply adj_sym; exact A|exact Q2].
Qed.
Lemma lk_mono h h' p q : h' <= h -> lk h p q -> lk h' p q.
Proof using. intros L H. induction H as [|q r H IH A B]; [apply lk_refl; [assumption|eapply Z.le_trans; eassumption]|]. eapply lk_step; [exact IH|exact A|eapply Z.le_trans; eassumption]. Qed.

Definition crit_of (l : list Z) : crit := fold_left (fun c p => c_update k c (co p)) l (c_reset k).

Record mtp (opn : Z -> Prop) (lam : Z) (eti lab : list Z) (tr : mtree) (par : Z -> Z) (own : Z -> list Z) : Prop := {
  p_len : Z.of_nat (length eti) = N;
  p_eti : forall p, 0 <= p < N -> eti # p <> 0 -> node tr (eti # p) /\ (mt_level tr) # (eti # p) = px # p;
  p_open : forall p, opn p -> 0 <= p < N /\ eti # p <> 0 /\ px # p <= lam /\ eti # p = lab # (px # p);
  p_done : forall p, 0 <= p < N -> eti # p <> 0 -> opn p \/ forall q, adj p q -> eti # q <> 0;
  p_edge : forall p q, adj p q -> eti # p <> 0 -> eti # q <> 0 -> px # q <= px # p -> anc par (eti # q) (eti # p);
  p_conn : forall n p q, 0 <= p < N -> 0 <= q < N -> eti # p <> 0 -> eti # q <> 0 -> anc par n (eti # p) -> anc par n (eti # q) -> lk ((mt_level tr) # n) p q;
  p_own : forall m, m <> 0 -> NoDup (own m) /\ (forall q, In q (own m) <-> 0 <= q < N /\ eti # q = m);
  p_crit : forall m, node tr m -> m <> 1 -> znth (0, 0) (mt_crit tr) m = crit_of (own m) }.

Lemma mts_crit lam lab tr par kids cr : mts lam lab tr par kids -> length cr = length (mt_crit tr) ->
  mts lam lab (MT (mt_level tr) (mt_child tr) (mt_brother tr) cr) par kids.
Proof using. intros [A B C D E F G H I J K] L. constructor; try assumption. cbn. rewrite L. exact A. Qed.

(** A pixel enters the tree. *)
Lemma visit opn lam eti lab tr par kids own lab' tr' par' kids' m p nb :
  mts lam lab tr par kids -> mtp opn lam eti lab tr par own ->
  opn p -> px # p = lam -> 0 <= nb < N -> adj p nb -> eti # nb = 0 ->
  mstep k tr par tr' par' -> mts (Z.max lam (px # nb)) lab' tr' par' kids' -> lab' # (px # nb) = m -> node tr' m ->
  (forall j, j <= lam -> j <> px # nb -> lab' # j = lab # j) -> (lab # (px # nb) <> 0 -> px # nb <= lam -> m = lab # (px # nb)) ->
  (forall x, anc par' x m -> anc par' x (lab # lam) \/ (x = m /\ forall y, node tr y -> ~ anc par' m y)) ->
  mtp (fun q => opn q \/ q = nb) (Z.max lam (px # nb)) (upd eti nb m) lab'
    (MT (mt_level tr') (mt_child tr') (mt_brother tr') (upd (mt_crit tr') m (c_update k (znth (0, 0) (mt_crit tr') m) (co nb)))) par'
    (fun x => if x =? m then own m ++ [nb] else own x).
Proof using Ht Hmv Hpx adj_sym adj_rng.
  intros S [Len Eti Open Done Edge Conn Own Crit] Op Pl Hnb Apn Z0 St S' El Nm Lold Lsame Anc.
  assert (Up : forall q, znth 0 (upd eti nb m) q = if q =? nb then m else eti # q) by (intros q; apply znth_upd'; lia).
  assert (NN : forall x, node tr x -> node tr' x) by (pose proof (e_cur _ _ _ _ _ St); unfold node; intros; lia).
  assert (m <> 0) as Nm0 by (unfold node in Nm; lia).
  pose proof (Hpx nb Hnb) as Hv. set (vn := px # nb) in *.
  assert ((mt_level tr') # m = vn) as Lm. { rewrite <- El. apply (s_lab _ _ _ _ _ _ _ S' vn); [lia|congruence]. }
  destruct (Open p Op) as (Pr & Pv & _ & Pe). rewrite Pl in Pe.
  assert (Eo : forall q, opn q -> eti # q = lab' # (px # q)).
  { intros q Hq. destruct (Open q Hq) as (A & B & C & D). rewrite D. destruct (Z.eq_dec (px # q) vn) as [E|E].
    - rewrite E, El. symmetry. rewrite E in D, C. apply Lsame; [congruence|exact C].
    - symmetry. apply Lold; assumption. }
  assert (Lev : forall x y, anc par' x y -> node tr' y -> (mt_level tr') # x <= (mt_level tr') # y).
  { intros x y Hx Hy. destruct (anc_level (node tr') par' (znth 0 (mt_level tr')) (s_par _ _ _ _ _ _ _ S') _ _ Hx Hy) as [-> |]; lia. }
  (* both pixels were in the tree *)
  assert (Cold : forall x a b, 0 <= a < N -> 0 <= b < N -> eti # a <> 0 -> eti # b <> 0 -> anc par' x (eti # a) -> anc par' x (eti # b) -> lk ((mt_level tr') # x) a b).
  { intros x a b Ra Rb Va Vb Ha Hb. destruct (Eti a Ra Va) as (Na & La). destruct (Eti b Rb Vb) as (Nb & Lb).
    pose proof (anc_node (node tr') par' (znth 0 (mt_level tr')) (s_par _ _ _ _ _ _ _ S') _ _ Ha (NN _ Na)) as Nx.
    destruct (Z_lt_dec x (curLabel tr)) as [Q|Q].
    - assert (node tr x) as Nx' by (unfold node in *; lia). rewrite (e_level _ _ _ _ _ St x Nx').
      apply Conn; try assumption; apply (e_old _ _ _ _ _ St); assumption.
    - assert (~ node tr x) as Nx' by (unfold node in *; lia). destruct (e_below _ _ _ _ _ St x Nx Nx') as [F|(c & C1 & C2 & C3)].
      + exfalso. exact (F _ Na Ha).
      + apply (lk_mono ((mt_level tr) # c)); [exact C2|]. apply Conn; try assumption; apply C3; assumption. }
  (* the new pixel and another one *)
  assert (Cnew : forall x b, 0 <= b < N -> eti # b <> 0 -> anc par' x m -> anc par' x (eti # b) -> lk ((mt_level tr') # x) nb b).
  { intros x b Rb Vb Ha Hb. pose proof (Lev x m Ha Nm) as Lx. rewrite Lm in Lx. destruct (Eti b Rb Vb) as (Nb & Lb).
    destruct (Anc x Ha) as [A|(-> & F)].
    - rewrite <- Pe in A. pose proof (Cold x p b Pr Rb Pv Vb A Hb) as L. destruct (lk_start _ _ _ L) as (_ & L2).
      apply (lk_trans _ nb p); [|exact L]. eapply lk_step; [apply lk_refl; [exact Hnb|exact Lx]|apply adj_sym; exact Apn|exact L2].
    - exfalso. exact (F _ Nb Hb). }
  constructor.
  - rewrite upd_length. exact Len.
  - intros q Hq. rewrite Up. destruct (Z.eqb_spec q nb) as [-> |].
    + intros _. split; [exact Nm|exact Lm].
    + intros Vq. destruct (Eti q Hq Vq) as (A & B). split; [apply NN; exact A|]. cbn [mt_level]. rewrite (e_level _ _ _ _ _ St _ A). exact B.
  - intros q Hq. rewrite Up. destruct (Z.eqb_spec q nb) as [-> |Nq].
    + split; [exact Hnb|]. split; [exact Nm0|]. split; [fold vn; lia|]. symmetry; exact El.
    + destruct Hq as [Hq|]; [|contradiction]. destruct (Open q Hq) as (A & B & C & D). split; [exact A|]. split; [exact B|]. split; [lia|]. apply Eo; exact Hq.
  - intros q Hq. rewrite Up. destruct (Z.eqb_spec q nb) as [-> |Nq]; [intros _; left; right; reflexivity|].
    intros Vq. destruct (Done q Hq Vq) as [D|D]; [left; left; exact D|]. right. intros r Hr. rewrite Up. destruct (r =? nb); [exact Nm0|]. apply D; exact Hr.
  - intros a b Hab. rewrite !Up. assert (forall c, adj nb c -> eti # c <> 0 -> opn c) as Nop.
    { intros c Hc Vc. destruct (Done c (adj_rng _ _ (adj_sym _ _ Hc)) Vc) as [D|D]; [exact D|]. exfalso. apply (D nb); [apply adj_sym; exact Hc|exact Z0]. }
    destruct (Z.eqb_spec a nb) as [-> |Na]; destruct (Z.eqb_spec b nb) as [-> |Nb].
    + intros; apply anc_self.
    + intros _ Vb Hl. pose proof (Nop b Hab Vb) as Ob. rewrite (Eo b Ob) in *. rewrite <- El. destruct (Open b Ob) as (Rb & _ & Lb & _).
      apply (spine_anc t mv Hmv _ _ _ _ _ _ _ S'); try assumption; try congruence; [|lia]. pose proof (Hpx b Rb). fold vn in Hl. lia.
    + intros Va _ Hl. pose proof (Nop a (adj_sym _ _ Hab) Va) as Oa. rewrite (Eo a Oa) in *. rewrite <- El. destruct (Open a Oa) as (Ra & _ & La & _).
      apply (spine_anc t mv Hmv _ _ _ _ _ _ _ S'); try assumption; try congruence; [|lia]. fold vn in Hl. lia.
    + intros Va Vb Hl. apply (e_old _ _ _ _ _ St); [apply (Eti b); [exact (adj_rng _ _ (adj_sym _ _ Hab))|exact Vb]|apply (Eti a); [exact (adj_rng _ _ Hab)|exact Va]|].
      apply Edge; assumption.
  - intros x a b Ra Rb. rewrite !Up. cbn [mt_level]. destruct (Z.eqb_spec a nb) as [-> |Na]; destruct (Z.eqb_spec b nb) as [-> |Nb].
    + intros _ _ Ha _. apply lk_refl; [exact Hnb|]. pose proof (Lev x m Ha Nm). fold vn. lia.
    + intros _ Vb Ha Hb. apply Cnew; assumption.
    + intros Va _ Ha Hb. apply lk_sym. apply Cnew; assumption.
    + intros Va Vb Ha Hb. apply Cold; assumption.
  - intros x Hx. destruct (Z.eqb_spec x m) as [-> |Nx].
    + destruct (Own m Nm0) as (O1 & O2). split.
      * apply NoDup_rev in O1. rewrite <- (rev_involutive (own m ++ [nb])). apply NoDup_rev. rewrite rev_app_distr. cbn [rev app]. constructor; [|exact O1].
        intros Hi. apply in_rev in Hi. apply O2 in Hi as (_ & Hi). congruence.
      * intros q. rewrite in_app_iff, O2, Up. cbn [In]. destruct (Z.eqb_spec q nb) as [-> |]; [tauto|]. split; [intros [?|[?|[]]]; [assumption|congruence]|auto].
    + destruct (Own x Hx) as (O1 & O2). split; [exact O1|]. intros q. rewrite O2, Up. destruct (Z.eqb_spec q nb) as [-> |]; [|reflexivity]. split; intros (_ & ?); congruence.
  - intros x Nx N1. cbn [mt_crit]. pose proof (s_lens _ _ _ _ _ _ _ S') as (_ & _ & Lc). unfold node in Nx, Nm. change (curLabel (MT _ _ _ _)) with (curLabel tr') in Nx. unfold curLabel in Nx, Nm.
    assert (forall y, node tr' y -> y <> 1 -> znth (0, 0) (mt_crit tr') y = crit_of (own y)) as CO.
    { intros y Ny Ny1. destruct (Z_lt_dec y (curLabel tr)) as [Q|Q].
      - assert (node tr y) as Ny' by (unfold node in *; lia). rewrite (e_crit _ _ _ _ _ St y Ny'). apply Crit; assumption.
      - assert (~ node tr y) as Ny' by (unfold node in *; lia). rewrite (e_new _ _ _ _ _ St y Ny Ny').
        assert (own y = []) as ->; [|reflexivity]. destruct (own y) as [|q l] eqn:E; [reflexivity|]. exfalso. apply Ny'.
        destruct (Own y ltac:(unfold node in Ny; lia)) as (_ & O2). destruct (proj1 (O2 q)) as (Rq & Eq); [rewrite E; left; reflexivity|].
        rewrite <- Eq. apply Eti; [exact Rq|]. unfold node in Ny; lia. }
    unfold crit in *. rewrite znth_upd' by lia. destruct (Z.eqb_spec x m) as [-> |].
    + rewrite CO by (unfold node, curLabel; lia). unfold crit_of. rewrite fold_left_app. reflexivity.
    + apply CO; [unfold node, curLabel; lia|exact N1].
Qed.
End pixels.
