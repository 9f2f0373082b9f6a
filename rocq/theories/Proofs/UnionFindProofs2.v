(** Union-find: what the forest says of the components. *)
From Verif Require Export Proofs.UnionFindProofs.

Local Notation "l # i" := (znth 0 l i) (at level 9).

Section unions.
Variables (px : list Z) (N lam : Z) (adj : Z -> Z -> Prop) (rk : Z -> Z) (R : Z).
Hypothesis adj_sym : forall p q, adj p q -> adj q p.
Hypothesis adj_rng : forall p q, adj p q -> 0 <= p < N.
Hypothesis Hlam : 1 <= lam.
Local Notation lk := (lk px N adj).

Definition big (V : Z -> Prop) : Prop := exists l, NoDup l /\ lam <= Z.of_nat (length l) /\ forall q, In q l -> V q.
Lemma big_mono (V V' : Z -> Prop) : (forall q, V q -> V' q) -> big V -> big V'.
Proof using adj_sym adj_rng Hlam. intros H (l & A & B & C). exists l. auto. Qed.

Record uinv (D : Z -> Prop) (E : Z -> Z -> Prop) (f : Z -> Z) (c : Z) : Prop := {
  v_dom : forall q, D q -> 0 <= q < N;
  v_rk : forall q, D q -> 0 <= rk q <= R;
  v_rank : ranked D rk f;
  v_edge : forall a b, E a b -> adj a b /\ D a;
  v_sym : forall a b, E a b -> E b a;
  v_high : forall a b, adj a b -> c < px # a -> c < px # b -> E a b;
  v_low : forall a, D a -> c <= px # a;
  v_kon : forall q r, D q -> root f q r -> kon E q r;
  v_lk : forall q r, D q -> root f q r -> lk (px # r) q r;
  v_act : forall r, D r -> f r < 0 -> - f r < lam -> (forall q, kon E r q -> root f q r) /\ exists l, NoDup l /\ (forall q, In q l <-> kon E r q) /\ Z.of_nat (length l) = - f r;
  v_full : forall r, D r -> f r < 0 -> lam <= - f r -> big (lk (px # r) r);
  v_not : forall q r h, D q -> root f q r -> px # r < h <= px # q -> ~ big (lk h q) }.

Lemma kon_D D E f c a b : uinv D E f c -> D a -> kon E a b -> D b.
Proof using adj_sym adj_rng Hlam. intros V Da H. induction H as [|b c' H IH A]; [exact Da|]. apply (v_sym _ _ _ _ V) in A. apply (v_edge _ _ _ _ V _ _ A). Qed.

Lemma kon_lk D E f c a b h : uinv D E f c -> D a -> h <= c -> kon E a b -> lk h a b.
Proof using adj_sym adj_rng Hlam.
  intros V Da L H. induction H as [|b d H IH A].
  - pose proof (v_low _ _ _ _ V a Da). apply lk_refl; [apply (v_dom _ _ _ _ V); exact Da|lia].
  - destruct (v_edge _ _ _ _ V _ _ A) as (Ad & _). pose proof (v_low _ _ _ _ V d (proj2 (v_edge _ _ _ _ V _ _ (v_sym _ _ _ _ V _ _ A)))). eapply lk_step; [exact IH|exact Ad|lia].
Qed.

Lemma lk_kon D E f c a b h : uinv D E f c -> c < h -> lk h a b -> kon E a b.
Proof using adj_sym adj_rng Hlam.
  intros V L H. induction H as [|b d H IH A B]; [apply kon_refl|]. eapply kon_step; [exact IH|]. apply (v_high _ _ _ _ V); [exact A| |lia].
  destruct (lk_end px N adj adj_sym adj_rng _ _ _ H). lia.
Qed.

(** Components that do not hold the ends of the new edge do not change. *)
Lemma kon_join_away (E : Z -> Z -> Prop) p n a b : (forall x y, E x y -> E y x) -> ~ kon E a p -> ~ kon E a n -> (kon (join_edge E p n) a b <-> kon E a b).
Proof using adj_sym adj_rng Hlam.
  intros S A B. split; [intros H; destruct (kon_join E p n a b S H) as [H'|([H'|H'] & _)]; [exact H'|contradiction|contradiction]|].
  apply kon_mono. intros x y. unfold join_edge. auto.
Qed.
Lemma kon_join_same (E : Z -> Z -> Prop) p n a b : (forall x y, E x y -> E y x) -> kon E n p -> (kon (join_edge E p n) a b <-> kon E a b).
Proof using adj_sym adj_rng Hlam.
  intros S A. pose proof (kon_sym E n p S A) as A'. split; [|apply kon_mono; intros x y; unfold join_edge; auto].
  intros H. destruct (kon_join E p n a b S H) as [H'|([H'|H'] & [H2|H2])]; [exact H'| | | |].
  - eapply kon_trans; eassumption.
  - eapply kon_trans; [exact H'|]. eapply kon_trans; eassumption.
  - eapply kon_trans; [exact H'|]. eapply kon_trans; eassumption.
  - eapply kon_trans; eassumption.
Qed.

(** The invariant depends only on the relation of connection. *)
Lemma uinv_edges D (E E' : Z -> Z -> Prop) f c : uinv D E f c -> (forall a b, E' a b -> adj a b /\ D a) -> (forall a b, E' a b -> E' b a) ->
  (forall a b, adj a b -> c < px # a -> c < px # b -> E' a b) -> (forall a b, kon E' a b <-> kon E a b) -> uinv D E' f c.
Proof using adj_sym adj_rng Hlam.
  intros V HE HS HH K. destruct V as [A1 A2 A3 A4 A5 A6 A7 A8 A9 A10 A11 A12]. constructor; try assumption.
  - intros q r Dq Hr. apply K. auto.
  - intros r Dr L L'. destruct (A10 r Dr L L') as (B1 & l & B2 & B3 & B4). split; [intros q Hq; apply B1, K, Hq|]. exists l. split; [exact B2|]. split; [|exact B4].
    intros q. split; intros H; [apply K, B3, H|apply B3, K, H].
Qed.

Lemma uinv_ext D E f g c : uinv D E f c -> (forall q, f q = g q) -> uinv D E g c.
Proof using adj_sym adj_rng Hlam.
  intros V X. assert (X' : forall q, g q = f q) by (intros; symmetry; apply X). destruct V as [A1 A2 A3 A4 A5 A6 A7 A8 A9 A10 A11 A12]. constructor; try assumption.
  - intros q Dq. rewrite <- X. apply A3. exact Dq.
  - intros q r Dq Hr. apply A8; [exact Dq|]. exact (root_ext g f q r X' Hr).
  - intros q r Dq Hr. apply A9; [exact Dq|]. exact (root_ext g f q r X' Hr).
  - intros r Dr. rewrite <- X. intros L L'. destruct (A10 r Dr L L') as (B1 & B2). split; [|exact B2]. intros q Hq. exact (root_ext f g q r X (B1 q Hq)).
  - intros r Dr. rewrite <- X. apply A11. exact Dr.
  - intros q r h Dq Hr. apply A12; [exact Dq|]. exact (root_ext g f q r X' Hr).
Qed.

Lemma uinv_squeezed D E f f' c : uinv D E f c -> squeezed D f f' -> uinv D E f' c.
Proof using adj_sym adj_rng Hlam.
  intros V S. assert (P : forall q, D q -> 0 <= q) by (intros q Hq; apply (v_dom _ _ _ _ V q Hq)). pose proof (v_rank _ _ _ _ V) as K. pose proof (v_rk _ _ _ _ V) as Rk.
  assert (Rt : forall q r, D q -> (root f' q r <-> root f q r)) by (intros q r Dq; apply (squeezed_root D rk R Rk f f' q r S P K Dq)).
  assert (Ng : forall q, D q -> f' q < 0 -> f' q = f q). { intros q Dq L. destruct (S q) as [Eq|(_ & L' & Hr)]; [exact Eq|]. destruct (root_in D rk R Rk f q _ K Dq Hr) as (Dr & _). specialize (P _ Dr). lia. }
  destruct V as [A1 A2 A3 A4 A5 A6 A7 A8 A9 A10 A11 A12]. constructor; try assumption.
  - apply (squeezed_ranked D rk R Rk f f' S P K).
  - intros q r Dq Hr. apply A8, Rt; assumption.
  - intros q r Dq Hr. apply A9, Rt; assumption.
  - intros r Dr L L'. pose proof (Ng r Dr L) as Eg. rewrite Eg in L, L' |- *. destruct (A10 r Dr L L') as (B1 & B2). split; [|exact B2]. intros q Hq. apply Rt; [|apply B1; exact Hq].
    clear - A4 A5 Hq Dr. induction Hq as [|b d H IH A]; [exact Dr|]. exact (proj2 (A4 _ _ (A5 _ _ A))).
  - intros r Dr L L'. pose proof (Ng r Dr L) as Eg. rewrite Eg in L, L'. apply A11; assumption.
  - intros q r h Dq Hr. apply A12; [exact Dq|]. apply Rt; assumption.
Qed.

(** ** A new pixel *)
Lemma uinv_make D E f c p : uinv D E f c -> ~ D p -> 0 <= p < N -> 0 <= rk p <= R -> px # p = c ->
  uinv (fun q => D q \/ q = p) E (fun q => if q =? p then -1 else f q) c.
Proof using adj_sym adj_rng Hlam.
  intros V Np Rp Rk Ec. set (g := fun q => if q =? p then -1 else f q).
  assert (G : forall q, D q -> g q = f q) by (intros q Dq; unfold g; destruct (q =? p) eqn:Q; [assert (q = p) as -> by lia; contradiction|reflexivity]).
  assert (Gp : g p = -1) by (unfold g; rewrite Z.eqb_refl; reflexivity).
  pose proof (v_rank _ _ _ _ V) as K.
  assert (Rt1 : forall q r, D q -> root f q r -> root g q r).
  { intros q r Dq H. induction H as [q L|q r L H IH]; [apply root_here; rewrite G by exact Dq; exact L|]. apply root_up; rewrite G by exact Dq; [exact L|]. apply IH. destruct (K q Dq) as [L'|(_ & Df & _)]; [lia|exact Df]. }
  assert (Rt : forall q r, D q -> root g q r -> root f q r).
  { intros q r Dq H. destruct (root_exists D rk R (v_rk _ _ _ _ V) f q K Dq) as (r' & H'). rewrite (root_fun g q r r' H (Rt1 q r' Dq H')). exact H'. }
  assert (Rp' : forall r, root g p r -> r = p) by (intros r H; apply (root_fun g p r p H), root_here; rewrite Gp; lia).
  assert (Kp : forall a, kon E p a -> a = p). { intros a H. induction H as [|b d H IH A]; [reflexivity|]. subst b. exfalso. apply Np. apply (v_edge _ _ _ _ V _ _ A). }
  pose proof V as [A1 A2 A3 A4 A5 A6 A7 A8 A9 A10 A11 A12]. constructor.
  - intros q [Dq| ->]; [auto|exact Rp].
  - intros q [Dq| ->]; [auto|exact Rk].
  - intros q [Dq| ->]; [|left; rewrite Gp; lia]. rewrite G by exact Dq. destruct (A3 q Dq) as [|(L1 & L2 & L3)]; [auto|right; auto].
  - intros a b H. destruct (A4 a b H). auto.
  - exact A5.
  - exact A6.
  - intros a [Da| ->]; [auto|lia].
  - intros q r [Dq| ->] Hr; [apply A8; auto|]. rewrite (Rp' r Hr). apply kon_refl.
  - intros q r [Dq| ->] Hr; [apply A9; auto|]. rewrite (Rp' r Hr). apply lk_refl; [exact Rp|lia].
  - intros r [Dr| ->] L L'.
    + rewrite G in L, L' by exact Dr. rewrite G by exact Dr. destruct (A10 r Dr L L') as (B1 & B2). split; [|exact B2]. intros q Hq. apply Rt1; [exact (kon_D _ _ _ _ _ _ V Dr Hq)|apply B1; exact Hq].
    + split; [intros q Hq; rewrite (Kp q Hq); apply root_here; rewrite Gp; lia|]. exists [p]. split; [constructor; [intros []|constructor]|]. split; [|rewrite Gp; reflexivity].
      intros q. split; [intros [<- |[]]; apply kon_refl|intros Hq; left; symmetry; apply Kp; exact Hq].
  - intros r [Dr| ->] L L'.
    + rewrite G in L, L' by exact Dr. apply A11; assumption.
    + rewrite Gp in L'. exists [p]. split; [constructor; [intros []|constructor]|]. split; [cbn; lia|]. intros q [<- |[]]. apply lk_refl; [exact Rp|lia].
  - intros q r h [Dq| ->] Hr Hh; [eapply A12; eauto|]. rewrite (Rp' r Hr) in Hh. lia.
Qed.

(** ** Unions *)
Section union.
Variables (D : Z -> Prop) (E : Z -> Z -> Prop) (f : Z -> Z) (p n r : Z).
Local Notation c := (px # p).
Hypothesis V : uinv D E f c.
Hypothesis Dp : D p.
Hypothesis Fp : f p < 0.
Hypothesis Dn : D n.
Hypothesis Ad : adj p n.
Hypothesis Hr : root f n r.
Local Notation E' := (join_edge E p n).

Lemma join_ok : (forall a b, E' a b -> adj a b /\ D a) /\ (forall a b, E' a b -> E' b a) /\ (forall a b, adj a b -> c < px # a -> c < px # b -> E' a b).
Proof using adj_sym adj_rng Hlam V Dp Fp Dn Ad Hr.
  split; [|split].
  - intros a b [H|[(-> & ->)|(-> & ->)]]; [apply (v_edge _ _ _ _ V); exact H|auto|auto].
  - intros a b [H|[(-> & ->)|(-> & ->)]]; [left; apply (v_sym _ _ _ _ V); exact H|right; right; auto|right; left; auto].
  - intros a b H1 H2 H3. left. apply (v_high _ _ _ _ V); assumption.
Qed.

Lemma union_same : r = p -> uinv D E' f c.
Proof using adj_sym adj_rng Hlam V Dp Fp Dn Ad Hr.
  intros Er. destruct join_ok as (J1 & J2 & J3). apply (uinv_edges D E); try assumption. intros a b. apply kon_join_same; [apply (v_sym _ _ _ _ V)|]. apply (v_kon _ _ _ _ V); [assumption|]. rewrite <- Er. exact Hr.
Qed.

Lemma union_D : D r.
Proof using adj_sym adj_rng Hlam V Dp Fp Dn Ad Hr. apply (root_in D rk R (v_rk _ _ _ _ V) f n r (v_rank _ _ _ _ V) Dn Hr). Qed.
Lemma union_neg : f r < 0.
Proof using adj_sym adj_rng Hlam V Dp Fp Dn Ad Hr. exact (root_neg _ _ _ Hr). Qed.
Lemma union_link : lk c p r /\ c <= px # r.
Proof using adj_sym adj_rng Hlam V Dp Fp Dn Ad Hr.
  pose proof (v_lk _ _ _ _ V n r Dn Hr) as L. pose proof (v_low _ _ _ _ V r union_D) as Q. split; [|exact Q].
  eapply lk_trans; [|eapply lk_mono; [|exact L]; exact Q]. eapply lk_step; [apply lk_refl; [apply (v_dom _ _ _ _ V); exact Dp|apply Z.le_refl]|exact Ad|apply (v_low _ _ _ _ V); exact Dn].
Qed.

(** The component of [r] is not lower than asked for. *)
Lemma union_full : r <> p -> lam <= - f r -> uinv D E' (fun q => if q =? p then - lam else f q) c.
Proof using adj_sym adj_rng Hlam V Dp Fp Dn Ad Hr.
  intros Np Lr. destruct join_ok as (J1 & J2 & J3). destruct union_link as (Lk & Lc). pose proof union_D as Dr. pose proof union_neg as Fr.
  set (g := fun q => if q =? p then - lam else f q). assert (Gp : g p = - lam) by (unfold g; rewrite Z.eqb_refl; reflexivity).
  assert (G : forall q, q <> p -> g q = f q) by (intros q Hq; unfold g; destruct (q =? p) eqn:Q; [lia|reflexivity]).
  assert (Rt1 : forall q s, root f q s -> root g q s).
  { intros q s H. induction H as [q L|q s L H IH].
    - apply root_here. destruct (Z.eq_dec q p) as [-> |Hq]; [rewrite Gp; lia|rewrite G by exact Hq; exact L].
    - assert (q <> p) by (intros ->; lia). apply root_up; rewrite G by assumption; assumption. }
  assert (Rt : forall q s, D q -> root g q s -> root f q s).
  { intros q s Dq H. destruct (root_exists D rk R (v_rk _ _ _ _ V) f q (v_rank _ _ _ _ V) Dq) as (s' & H'). rewrite (root_fun g q s s' H (Rt1 q s' H')). exact H'. }
  assert (Bg : big (lk c p)).
  { eapply big_mono; [|apply (v_full _ _ _ _ V r Dr Fr Lr)]. intros q Hq. eapply lk_trans; [exact Lk|]. eapply lk_mono; [exact Lc|exact Hq]. }
  pose proof V as [A1 A2 A3 A4 A5 A6 A7 A8 A9 A10 A11 A12]. constructor; try assumption.
  - intros q Dq. destruct (Z.eq_dec q p) as [-> |Hq]; [left; rewrite Gp; lia|rewrite G by exact Hq; apply A3; exact Dq].
  - intros q s Dq H. apply (kon_mono E); [intros x y; unfold join_edge; auto|]. apply A8; auto.
  - intros q s Dq H. apply A9; auto.
  - intros s Ds L L'. destruct (Z.eq_dec s p) as [-> |Hq]; [rewrite Gp in L'; lia|]. rewrite G in L, L' by exact Hq. rewrite G by exact Hq.
    destruct (A10 s Ds L L') as (B1 & l & B2 & B3 & B4).
    assert (M1 : ~ kon E s p) by (intros H; apply Hq; apply (root_fun f p s p (B1 p H)), root_here; exact Fp).
    assert (M2 : ~ kon E s n) by (intros H; pose proof (root_fun f n s r (B1 n H) Hr) as ->; lia).
    split; [intros q Hk; apply Rt1, B1; apply (kon_join_away E p n s q A5 M1 M2); exact Hk|]. exists l. split; [exact B2|]. split; [|exact B4].
    intros q. split; intros H; [apply (kon_join_away E p n s q A5 M1 M2), B3; exact H|apply B3, (kon_join_away E p n s q A5 M1 M2); exact H].
  - intros s Ds L L'. destruct (Z.eq_dec s p) as [-> |Hq]; [exact Bg|]. rewrite G in L, L' by exact Hq. apply A11; assumption.
  - intros q s h Dq H. apply A12; auto.
Qed.

(** The tree of [r] is put under [p]. *)
Lemma union_merge : r <> p -> rk r < rk p -> px # r = px # p \/ - f r < lam ->
  uinv D E' (fun q => if q =? r then p else if q =? p then f p + f r else f q) c.
Proof using adj_sym adj_rng Hlam V Dp Fp Dn Ad Hr.
  intros Np Lrk Cr. destruct join_ok as (J1 & J2 & J3). destruct union_link as (Lk & Lc). pose proof union_D as Dr. pose proof union_neg as Fr.
  set (g := fun q => if q =? r then p else if q =? p then f p + f r else f q).
  assert (Gr : g r = p) by (unfold g; rewrite Z.eqb_refl; reflexivity).
  assert (Gp : g p = f p + f r) by (unfold g; rewrite Z.eqb_refl; destruct (p =? r) eqn:Q; [lia|reflexivity]).
  assert (G : forall q, q <> p -> q <> r -> g q = f q) by (intros q H1 H2; unfold g; destruct (q =? r) eqn:Q; [lia|]; destruct (q =? p) eqn:Q'; [lia|reflexivity]).
  assert (Rp : root g p p) by (apply root_here; rewrite Gp; lia).
  assert (P0 : 0 <= p) by (apply (v_dom _ _ _ _ V p Dp)).
  assert (Rt1 : forall q s, root f q s -> root g q (if s =? r then p else s)).
  { intros q s H. induction H as [q L|q s L H IH].
    - destruct (q =? r) eqn:Q; [assert (q = r) as -> by lia; apply root_up; rewrite Gr; assumption|]. destruct (Z.eq_dec q p) as [-> |Hq]; [exact Rp|]. apply root_here. rewrite G by lia. exact L.
    - assert (q <> p) by (intros ->; lia). assert (q <> r) by (intros ->; lia). apply root_up; rewrite G by assumption; assumption. }
  assert (Rt : forall q s, D q -> root g q s -> (s = p /\ (root f q p \/ root f q r)) \/ (s <> p /\ s <> r /\ root f q s)).
  { intros q s Dq H. destruct (root_exists D rk R (v_rk _ _ _ _ V) f q (v_rank _ _ _ _ V) Dq) as (s' & H'). pose proof (root_fun g q s _ H (Rt1 q s' H')) as ->.
    destruct (s' =? r) eqn:Q; [assert (s' = r) as -> by lia; left; auto|]. destruct (Z.eq_dec s' p) as [-> |Hq]; [left; auto|right]. split; [exact Hq|]. split; [lia|exact H']. }
  assert (Kpn : kon E' p r).
  { eapply kon_trans; [eapply kon_step; [apply kon_refl|right; left; auto]|]. apply (kon_mono E); [intros x y; unfold join_edge; auto|]. apply (v_kon _ _ _ _ V); assumption. }
  assert (KE : forall a b, kon E a b -> kon E' a b) by (intros a b; apply kon_mono; intros x y; unfold join_edge; auto).
  assert (S' : forall a b, kon E' a b -> kon E' b a) by (intros a b; apply kon_sym; exact J2).
  pose proof V as [A1 A2 A3 A4 A5 A6 A7 A8 A9 A10 A11 A12].
  assert (Bmove : - f r < lam \/ lam <= - f r) by lia.
  (* the exact components when both are small *)
  assert (Two : - f p < lam -> - f r < lam -> (forall q, kon E' p q <-> (kon E p q \/ kon E r q)) /\ exists l, NoDup l /\ (forall q, In q l <-> kon E' p q) /\ Z.of_nat (length l) = - (f p + f r)).
  { intros Hp1 Hr1. destruct (A10 p Dp Fp Hp1) as (B1 & l1 & B2 & B3 & B4). destruct (A10 r Dr Fr Hr1) as (C1 & l2 & C2 & C3 & C4).
    assert (Knr : kon E n r) by (apply A8; assumption).
    assert (Ex : forall q, kon E' p q <-> (kon E p q \/ kon E r q)).
    { intros q. split.
      - intros H. destruct (kon_join E p n p q A5 H) as [H'|(_ & [H'|H'])]; [auto|auto|]. right. eapply kon_trans; [apply (kon_sym E n r A5 Knr)|exact H'].
      - intros [H|H]; [apply KE; exact H|]. eapply kon_trans; [exact Kpn|apply KE; exact H]. }
    split; [exact Ex|]. exists (l1 ++ l2). split.
    - apply NoDup_app'; [exact B2|exact C2|]. intros q H1 H2. apply B3 in H1. apply C3 in H2. apply Np. exact (root_fun f q r p (C1 q H2) (B1 q H1)).
    - split; [|rewrite app_length; lia]. intros q. rewrite in_app_iff. split.
      + intros [H|H]; apply Ex; [left; apply B3|right; apply C3]; exact H.
      + intros H. apply Ex in H as [H|H]; [left; apply B3|right; apply C3]; exact H. }
  constructor; try assumption.
  - intros q Dq. destruct (Z.eq_dec q r) as [-> |H1]; [right; rewrite Gr; auto|]. destruct (Z.eq_dec q p) as [-> |H2]; [left; rewrite Gp; lia|]. rewrite G by assumption. apply A3. exact Dq.
  - intros q s Dq H. destruct (Rt q s Dq H) as [(-> & [H1|H1])|(_ & _ & H1)]; [apply KE, A8; assumption| |apply KE, A8; assumption].
    eapply kon_trans; [apply KE, A8; eassumption|]. apply S'. exact Kpn.
  - intros q s Dq H. destruct (Rt q s Dq H) as [(-> & [H1|H1])|(_ & _ & H1)]; [apply A9; assumption| |apply A9; assumption].
    eapply lk_trans; [eapply lk_mono; [exact Lc|apply A9; eassumption]|]. apply lk_sym; assumption.
  - intros s Ds L L'. destruct (Z.eq_dec s r) as [-> |H1]; [rewrite Gr in L; lia|]. destruct (Z.eq_dec s p) as [-> |H2].
    + rewrite Gp in L' |- *. destruct (Two ltac:(lia) ltac:(lia)) as (Ex & B2). split; [|exact B2].
      destruct (A10 p Dp Fp ltac:(lia)) as (B1 & _). destruct (A10 r Dr Fr ltac:(lia)) as (C1 & _). intros q Hq. apply Ex in Hq as [Hq|Hq].
      * pose proof (Rt1 q p (B1 q Hq)) as Q. destruct (p =? r) eqn:Q'; [lia|exact Q].
      * pose proof (Rt1 q r (C1 q Hq)) as Q. rewrite Z.eqb_refl in Q. exact Q.
    + rewrite G in L, L' by assumption. rewrite G by assumption. destruct (A10 s Ds L L') as (B1 & l & B2 & B3 & B4).
      assert (M1 : ~ kon E s p) by (intros H; apply H2; apply (root_fun f p s p (B1 p H)), root_here; exact Fp).
      assert (M2 : ~ kon E s n) by (intros H; apply H1; exact (root_fun f n s r (B1 n H) Hr)).
      split; [intros q Hk; pose proof (Rt1 q s (B1 q (proj1 (kon_join_away E p n s q A5 M1 M2) Hk))) as Q; destruct (s =? r) eqn:Q'; [lia|exact Q]|].
      exists l. split; [exact B2|]. split; [|exact B4].
      intros q. split; intros H; [apply (kon_join_away E p n s q A5 M1 M2), B3; exact H|apply B3, (kon_join_away E p n s q A5 M1 M2); exact H].
  - intros s Ds L L'. destruct (Z.eq_dec s r) as [-> |H1]; [rewrite Gr in L; lia|]. destruct (Z.eq_dec s p) as [-> |H2]; [|rewrite G in L, L' by assumption; apply A11; assumption].
    rewrite Gp in L'. destruct (Z_lt_dec (- f p) lam) as [S1|S1]; [|apply A11; lia || assumption].
    destruct (Z_lt_dec (- f r) lam) as [S2|S2].
    + destruct (Two S1 S2) as (Ex & l & B2 & B3 & B4). exists l. split; [exact B2|]. split; [lia|]. intros q Hq. apply B3, Ex in Hq as [Hq|Hq].
      * apply (kon_lk D E f c p q c V Dp (Z.le_refl _) Hq).
      * eapply lk_trans; [exact Lk|]. apply (kon_lk D E f c r q c V Dr (Z.le_refl _) Hq).
    + destruct Cr as [Cr|Cr]; [|lia]. eapply big_mono; [|apply (A11 r Dr Fr); lia]. intros q Hq. rewrite Cr in Hq. eapply lk_trans; [exact Lk|exact Hq].
  - intros q s h Dq H Hh. destruct (Rt q s Dq H) as [(-> & [H1|H1])|(_ & _ & H1)]; [eapply A12; eassumption| |eapply A12; eassumption].
    destruct (Z_lt_dec (px # r) h) as [Q|Q]; [eapply A12; [exact Dq|exact H1|lia]|].
    destruct Cr as [Cr|Cr]; [lia|]. intros (l' & ND & Ll & Hl). destruct (A10 r Dr Fr Cr) as (C1 & l2 & C2 & C3 & C4).
    assert (incl l' l2) as I. { intros z Hz. apply C3. eapply kon_trans; [apply (kon_sym E q r A5), A8; assumption|]. apply (lk_kon D E f c q z h V); [lia|apply Hl; exact Hz]. }
    pose proof (NoDup_incl_length ND I). lia.
Qed.
End union.
End unions.
