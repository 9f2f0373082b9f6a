(** The max-tree: ancestors, lists of brothers and the two ways to add a node. *)
From Verif Require Export Spec.MaxTreeSpec Proofs.WatershedTheorems Proofs.WatershedLines2.

Local Notation "l # i" := (znth 0 l i) (at level 9).

(** *** Ancestors *)
Inductive anc (par : Z -> Z) (x : Z) : Z -> Prop :=
| anc_self : anc par x x
| anc_up y : y <> 1 -> anc par x (par y) -> anc par x y.

Lemma anc_trans par x y z : anc par x y -> anc par y z -> anc par x z.
Proof. intros H1 H2. induction H2 as [|z Hz H2 IH]; [exact H1|]. apply anc_up; assumption. Qed.

Lemma anc_total par a b m : anc par a m -> anc par b m -> anc par a b \/ anc par b a.
Proof.
  intros H. revert b. induction H as [|m Hm H IH]; intros b Hb; [auto|].
  inversion Hb; subst; [left; apply anc_up; assumption|]. apply IH. assumption.
Qed.

Lemma anc_cases par x y : anc par x y -> x = y \/ (y <> 1 /\ anc par x (par y)).
Proof. intros H. inversion H; subst; auto. Qed.

Section anc_facts.
Context (P : Z -> Prop) (par : Z -> Z) (lev : Z -> Z).
Hypothesis Hpar : forall m, P m -> m <> 1 -> P (par m) /\ lev (par m) < lev m.
Lemma anc_node x y : anc par x y -> P y -> P x.
Proof using Hpar. intros H. induction H as [|y Hy H IH]; intros Py; [exact Py|]. apply IH. apply Hpar; assumption. Qed.
Lemma anc_level x y : anc par x y -> P y -> x = y \/ lev x < lev y.
Proof using Hpar.
  intros H. induction H as [|y Hy H IH]; intros Py; [auto|]. destruct (Hpar y Py Hy) as (Pp & L). destruct (IH Pp) as [-> |]; right; lia.
Qed.
Lemma anc_antisym x y : anc par x y -> anc par y x -> P x -> P y -> x = y.
Proof using Hpar. intros H1 H2 Px Py. destruct (anc_level _ _ H1 Py); [assumption|]. destruct (anc_level _ _ H2 Px); [congruence|lia]. Qed.
(** The first ancestor at level [h] or above. *)
Lemma anc_first h m : P m -> h <= lev m -> lev 1 < h -> exists x, anc par x m /\ x <> 1 /\ P x /\ h <= lev x /\ lev (par x) < h.
Proof using Hpar.
  intros Pm Hh H1. remember (Z.to_nat (lev m - h)) as d eqn:Ed. revert m Pm Hh Ed.
  induction d as [d IH] using lt_wf_ind. intros m Pm Hh Ed.
  assert (m <> 1) as Nm by (intros ->; lia). destruct (Hpar m Pm Nm) as (Pp & L).
  destruct (Z_lt_dec (lev (par m)) h) as [Q|Q].
  - exists m. split; [apply anc_self|]. auto.
  - destruct (IH (Z.to_nat (lev (par m) - h)) ltac:(lia) (par m) Pp ltac:(lia) eq_refl) as (x & A & B). exists x. split; [apply anc_up; assumption|exact B].
Qed.

Context (n a : Z).
Hypothesis Hn : ~ P n.
Hypothesis Ha : P a.
Hypothesis Hn1 : n <> 1.

(** A new leaf [n] under [a]. *)
Definition par_leaf (m : Z) : Z := if m =? n then a else par m.
Lemma leaf_old x y : P y -> x <> n -> anc par_leaf x y <-> anc par x y.
Proof using Hpar Hn.
  intros Py Nx. split; intros H; revert Py; induction H as [|y Hy H IH]; intros Py; try (apply anc_self); (apply anc_up; [exact Hy|]).
  - unfold par_leaf in *. destruct (Z.eqb_spec y n) as [-> |]; [contradiction|]. apply IH. apply Hpar; assumption.
  - unfold par_leaf at 2. destruct (Z.eqb_spec y n) as [-> |]; [contradiction|]. apply IH. apply Hpar; assumption.
Qed.
Lemma leaf_new x : x <> n -> anc par_leaf x n <-> anc par x a.
Proof using Hpar Hn Ha Hn1.
  intros Nx. rewrite <- (leaf_old x a Ha Nx). split; intros H.
  - destruct (anc_cases _ _ _ H) as [E|(_ & E)]; [contradiction|]. unfold par_leaf in E at 2. rewrite Z.eqb_refl in E. exact E.
  - apply anc_up; [exact Hn1|]. unfold par_leaf at 2. rewrite Z.eqb_refl. exact H.
Qed.
Lemma leaf_below y : P y -> ~ anc par_leaf n y.
Proof using Hpar Hn.
  intros Py H. induction H as [|y Hy H IH]; [contradiction|]. apply IH. unfold par_leaf. destruct (Z.eqb_spec y n) as [-> |]; [contradiction|]. apply Hpar; assumption.
Qed.

(** A new node [n] between [a] and its child [c]. *)
Context (c : Z).
Hypothesis Hc : P c.
Hypothesis Hc1 : c <> 1.
Hypothesis Hca : par c = a.
Definition par_mid (m : Z) : Z := if m =? n then a else if m =? c then n else par m.
Lemma mid_n : par_mid n = a. Proof using. unfold par_mid. rewrite Z.eqb_refl. reflexivity. Qed.
Lemma mid_c : par_mid c = n.
Proof using Hn Hc. unfold par_mid. destruct (Z.eqb_spec c n) as [E|]; [exfalso; apply Hn; rewrite <- E; exact Hc|]. rewrite Z.eqb_refl. reflexivity. Qed.
Lemma mid_other m : P m -> m <> c -> par_mid m = par m.
Proof using Hn. intros Pm Nm. unfold par_mid. destruct (Z.eqb_spec m n) as [-> |]; [contradiction|]. destruct (Z.eqb_spec m c); [contradiction|reflexivity]. Qed.
Lemma mid_fwd x y : anc par_mid x y -> x <> n -> (P y -> anc par x y) /\ (y = n -> anc par x a).
Proof using Hpar Hn Ha Hc Hca.
  intros H Nx. induction H as [|y Hy H IH]; [split; [intros; apply anc_self|contradiction]|]. destruct IH as (I1 & I2). split.
  - intros Py. apply anc_up; [exact Hy|]. destruct (Z.eq_dec y c) as [-> |Ny].
    + rewrite mid_c in I2. rewrite Hca. apply I2. reflexivity.
    + rewrite mid_other in I1 by assumption. apply I1. apply Hpar; assumption.
  - intros ->. rewrite mid_n in I1. apply I1. exact Ha.
Qed.
Lemma mid_back x y : anc par x y -> P y -> anc par_mid x y.
Proof using Hpar Hn Hn1 Hc Hc1 Hca.
  intros H. induction H as [|y Hy H IH]; intros Py; [apply anc_self|]. specialize (IH (proj1 (Hpar y Py Hy))). apply anc_up; [exact Hy|].
  destruct (Z.eq_dec y c) as [-> |Ny].
  - rewrite mid_c. apply anc_up; [exact Hn1|]. rewrite mid_n, <- Hca. exact IH.
  - rewrite mid_other by assumption. exact IH.
Qed.
Lemma mid_old x y : P y -> x <> n -> anc par_mid x y <-> anc par x y.
Proof using Hpar Hn Hn1 Ha Hc Hc1 Hca. intros Py Nx. split; intros H; [apply (mid_fwd x y H Nx); exact Py|apply mid_back; assumption]. Qed.
Lemma mid_new x : x <> n -> anc par_mid x n <-> anc par x a.
Proof using Hpar Hn Hn1 Ha Hc Hc1 Hca.
  intros Nx. split; intros H; [apply (mid_fwd x n H Nx); reflexivity|]. apply anc_up; [exact Hn1|]. rewrite mid_n. apply mid_back; assumption.
Qed.
Lemma mid_below y : P y -> anc par_mid n y <-> anc par c y.
Proof using Hpar Hn Hn1 Hc Hc1 Hca.
  intros Py. split; intros H.
  - revert Py. induction H as [|y Hy H IH]; intros Py; [contradiction|]. destruct (Z.eq_dec y c) as [-> |Ny]; [apply anc_self|].
    apply anc_up; [exact Hy|]. rewrite mid_other in IH by assumption. apply IH. apply Hpar; assumption.
  - apply anc_trans with c; [|apply mid_back; assumption]. apply anc_up; [exact Hc1|]. rewrite mid_c. apply anc_self.
Qed.
End anc_facts.

(** *** Lists of brothers *)
Inductive sibs (br : Z -> Z) : Z -> list Z -> Prop :=
| sibs_nil : sibs br 0 []
| sibs_cons c l : c <> 0 -> sibs br (br c) l -> sibs br c (c :: l).

Lemma sibs_ext br br' f l : (forall c, In c l -> br' c = br c) -> sibs br f l -> sibs br' f l.
Proof.
  intros H S. induction S as [|c l Hc S IH]; [constructor|]. constructor; [exact Hc|]. rewrite H by (left; reflexivity). apply IH. intros x Hx. apply H. right; exact Hx.
Qed.
Lemma sibs_head br f l : sibs br f l -> f <> 0 -> exists l', l = f :: l' /\ sibs br (br f) l'.
Proof. intros S N. destruct S as [|c l Hc S]; [contradiction|eauto]. Qed.
