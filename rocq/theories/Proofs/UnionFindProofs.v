(** Union-find: the forest of parents. *)
From Verif Require Export Proofs.MaxTreeProofs11 Model.UnionFind.

Local Notation "l # i" := (znth 0 l i) (at level 9).

(** The root of the tree of [q]. *)
Inductive root (f : Z -> Z) : Z -> Z -> Prop :=
| root_here q : f q < 0 -> root f q q
| root_up q r : 0 <= f q -> root f (f q) r -> root f q r.

Lemma root_fun f q r r' : root f q r -> root f q r' -> r = r'.
Proof.
  intros H. revert r'. induction H as [q L|q r L H IH]; intros r' H'; inversion H'; subst; (lia || (apply IH; assumption)).
Qed.
Lemma root_neg f q r : root f q r -> f r < 0.
Proof. intros H. induction H; assumption. Qed.
Lemma root_ext f g q r : (forall x, f x = g x) -> root f q r -> root g q r.
Proof. intros E H. induction H as [q L|q r L H IH]; [apply root_here; rewrite <- E; exact L|]. apply root_up; rewrite <- E; assumption. Qed.

Section forest.
Variables (D : Z -> Prop) (rk : Z -> Z) (R : Z).
Hypothesis Hrk : forall q, D q -> 0 <= rk q <= R.

Definition ranked (f : Z -> Z) : Prop := forall q, D q -> f q < 0 \/ (0 <= f q /\ D (f q) /\ rk q < rk (f q)).

Lemma root_exists f q : ranked f -> D q -> exists r, root f q r.
Proof using Hrk.
  intros K. remember (Z.to_nat (R - rk q)) as n eqn:En. revert q En. induction n as [n IH] using lt_wf_ind. intros q En Dq.
  destruct (K q Dq) as [L|(L & Df & Lt)]; [exists q; apply root_here; exact L|]. pose proof (Hrk q Dq). pose proof (Hrk _ Df).
  destruct (IH (Z.to_nat (R - rk (f q)))) with (q := f q) as (r & Hr); [lia|reflexivity|exact Df|]. exists r. apply root_up; assumption.
Qed.
Lemma root_in f q r : ranked f -> D q -> root f q r -> D r /\ (r = q \/ rk q < rk r).
Proof using Hrk.
  intros K Dq H. induction H as [q L|q r L H IH]; [auto|]. destruct (K q Dq) as [L'|(_ & Df & Lt)]; [lia|]. destruct (IH Df) as (Dr & C). split; [exact Dr|right]. destruct C as [-> |C]; lia.
Qed.

(** Some pixels are attached to their root. *)
Definition squeezed (f f' : Z -> Z) : Prop := forall q, f' q = f q \/ (D q /\ 0 <= f q /\ root f q (f' q)).

Lemma squeezed_root1 f f' q r : squeezed f f' -> (forall q, D q -> 0 <= q) -> ranked f -> D q -> root f' q r -> root f q r.
Proof using Hrk.
  intros S P K Dq H. induction H as [q L|q r L H IH].
  - destruct (S q) as [E|(_ & L' & Hr)]; [apply root_here; congruence|]. destruct (root_in f q _ K Dq Hr) as (Dr & _). specialize (P _ Dr). lia.
  - destruct (S q) as [E|(_ & L' & Hr)].
    + rewrite E in *. apply root_up; [exact L|]. apply IH. destruct (K q Dq) as [L'|(_ & Df & _)]; [lia|exact Df].
    + destruct (root_in f q _ K Dq Hr) as (Dr & _). specialize (IH Dr). assert (r = f' q) as ->; [|exact Hr]. pose proof (root_neg _ _ _ Hr) as Ln. apply (root_fun f (f' q)); [exact IH|apply root_here; exact Ln].
Qed.
Lemma squeezed_ranked f f' : squeezed f f' -> (forall q, D q -> 0 <= q) -> ranked f -> ranked f'.
Proof using Hrk.
  intros S P K q Dq. destruct (S q) as [E|(_ & L' & Hr)]; [rewrite E; apply K; exact Dq|]. destruct (root_in f q _ K Dq Hr) as (Dr & C). right. split; [apply P; exact Dr|]. split; [exact Dr|].
  destruct C as [C|C]; [|exact C]. pose proof (root_neg _ _ _ Hr). rewrite C in *. lia.
Qed.
Lemma squeezed_root f f' q r : squeezed f f' -> (forall q, D q -> 0 <= q) -> ranked f -> D q -> (root f' q r <-> root f q r).
Proof using Hrk.
  intros S P K Dq. split; [apply squeezed_root1; assumption|]. intros H. destruct (root_exists f' q (squeezed_ranked f f' S P K) Dq) as (r' & H').
  rewrite (root_fun f q r r' H (squeezed_root1 f f' q r' S P K Dq H')). exact H'.
Qed.
Lemma squeezed_neg f f' q : squeezed f f' -> (forall q, D q -> 0 <= q) -> ranked f -> f q < 0 -> f' q = f q.
Proof using Hrk. intros S P K L. destruct (S q) as [E|(_ & L' & _)]; [exact E|lia]. Qed.

Lemma find_ok fuel par x : ranked (fun q => par # q) -> (forall q, D q -> 0 <= q < Z.of_nat (length par)) -> D x -> (Z.to_nat (R - rk x) < fuel)%nat ->
  exists par' r, uf_find fuel par x = Some (Some (par', r)) /\ length par' = length par /\ root (fun q => par # q) x r /\ squeezed (fun q => par # q) (fun q => par' # q).
Proof using Hrk.
  revert x. induction fuel as [|fuel IH]; intros x K P Dx F; [lia|]. cbn [uf_find]. rewrite (rd_znth 0) by (apply P; exact Dx). cbn [option_bind].
  destruct (K x Dx) as [L|(L & Df & Lt)].
  - destruct (par # x >=? 0) eqn:Q; [lia|]. cbn [andb]. exists par, x. split; [reflexivity|]. split; [reflexivity|]. split; [apply root_here; exact L|]. intros q. left. reflexivity.
  - replace ((par # x >=? 0) && negb (par # x =? x)) with true by (destruct (Z.eq_dec (par # x) x) as [E|]; [rewrite E in Lt|]; lia).
    pose proof (Hrk x Dx). pose proof (Hrk _ Df). destruct (IH (par # x) K P Df) as (par1 & r & E1 & L1 & R1 & S1); [lia|]. rewrite E1. cbn [fuel_bind]. rewrite wr_upd by (rewrite L1; apply P; exact Dx). cbn [option_bind].
    exists (upd par1 x r), r. split; [reflexivity|]. split; [rewrite upd_length; exact L1|]. assert (root (fun q => par # q) x r) as Rx by (apply root_up; assumption). split; [exact Rx|].
    intros q. rewrite znth_upd' by (rewrite L1; apply P; exact Dx). destruct (q =? x) eqn:Q; [|apply S1]. assert (q = x) as -> by lia. right. auto.
Qed.
End forest.

(** ** The components *)
Inductive kon (E : Z -> Z -> Prop) (a : Z) : Z -> Prop :=
| kon_refl : kon E a a
| kon_step b c : kon E a b -> E b c -> kon E a c.
Lemma kon_trans E a b c : kon E a b -> kon E b c -> kon E a c.
Proof. intros H H'. induction H' as [|b' c' H' IH A]; [exact H|]. eapply kon_step; eassumption. Qed.
Lemma kon_sym (E : Z -> Z -> Prop) a b : (forall x y, E x y -> E y x) -> kon E a b -> kon E b a.
Proof. intros S H. induction H as [|b c H IH A]; [apply kon_refl|]. eapply kon_trans; [eapply kon_step; [apply kon_refl|apply S; exact A]|exact IH]. Qed.
Lemma kon_mono (E E' : Z -> Z -> Prop) a b : (forall x y, E x y -> E' x y) -> kon E a b -> kon E' a b.
Proof. intros S H. induction H as [|b c H IH A]; [apply kon_refl|]. eapply kon_step; [exact IH|apply S; exact A]. Qed.

(** One more edge. *)
Definition join_edge (E : Z -> Z -> Prop) (p n a b : Z) : Prop := E a b \/ (a = p /\ b = n) \/ (a = n /\ b = p).
Lemma kon_join (E : Z -> Z -> Prop) p n a b : (forall x y, E x y -> E y x) -> kon (join_edge E p n) a b -> kon E a b \/ ((kon E a p \/ kon E a n) /\ (kon E p b \/ kon E n b)).
Proof.
  intros S H. induction H as [|b c H IH A]; [left; apply kon_refl|]. destruct A as [A|[(-> & ->)|(-> & ->)]].
  - destruct IH as [IH|(IH & IH')]; [left; eapply kon_step; eassumption|right]. split; [exact IH|]. destruct IH' as [IH'|IH']; [left|right]; eapply kon_step; eassumption.
  - destruct IH as [IH|(IH & IH')]; right; (split; [auto|right; apply kon_refl]).
  - destruct IH as [IH|(IH & IH')]; right; (split; [auto|left; apply kon_refl]).
Qed.
