From Verif Require Export Proofs.MorphTheorems2 Spec.GranulometrySpec.

(** ** Families of openings and closings, in any order *)
Section Sieve.
Variables (X : Type) (T : X -> Prop) (R : X -> X -> Prop) (a b : nat -> X -> X).
Hypothesis R_refl : forall x, R x x.
Hypothesis R_trans : forall x y z, R x y -> R y z -> R x z.
Hypothesis Ta : forall n x, T x -> T (a n x).
Hypothesis Tb : forall n x, T x -> T (b n x).
Hypothesis a_incr : forall n x y, T x -> T y -> R x y -> R (a n x) (a n y).
Hypothesis b_incr : forall n x y, T x -> T y -> R x y -> R (b n x) (b n y).
Hypothesis a_below : forall n x, T x -> R (a n x) x.
Hypothesis b_above : forall n x, T x -> R x (b n x).
Hypothesis a_absorb : forall n m x, (n <= m)%nat -> T x -> R (a m x) (a n (a m x)).
Hypothesis b_absorb : forall n m x, (n <= m)%nat -> T x -> R (b n (b m x)) (b m x).

Lemma b_after n m x : (n <= m)%nat -> T x -> R (b m (b n x)) (b m x).
Proof.
  intros L H. eapply R_trans; [|apply (b_absorb m m); auto]. apply b_incr; auto. eapply R_trans; [|apply (b_absorb n m); auto].
  apply b_incr; auto.
Qed.
Lemma a_after n m x : (n <= m)%nat -> T x -> R (a m x) (a m (a n x)).
Proof.
  intros L H. eapply R_trans; [apply (a_absorb m m); auto|]. apply a_incr; auto. eapply R_trans; [apply (a_absorb n m); auto|].
  apply a_incr; auto.
Qed.

Definition mid (n : nat) (x : X) : X := a n (b n x).
Fixpoint Mid (n : nat) (x : X) : X := match n with O => x | S m => mid n (Mid m x) end.

Lemma mid_T n x : T x -> T (mid n x).
Proof. intros H. apply Ta, Tb, H. Qed.
Lemma Mid_T n x : T x -> T (Mid n x).
Proof. intros H. induction n as [|n IH]; [exact H|]. apply mid_T. exact IH. Qed.
Lemma mid_incr n x y : T x -> T y -> R x y -> R (mid n x) (mid n y).
Proof. intros Hx Hy H. apply a_incr; auto. Qed.
Lemma Mid_incr n x y : T x -> T y -> R x y -> R (Mid n x) (Mid n y).
Proof. intros Hx Hy H. induction n as [|n IH]; [exact H|]. apply mid_incr; auto using Mid_T. Qed.

Lemma mid_ge i j x : (i <= j)%nat -> T x -> R (mid j x) (mid i (mid j x)).
Proof.
  intros L H. eapply R_trans; [apply (a_absorb i j); auto|]. unfold mid at 1. apply a_incr; auto using mid_T.
Qed.
Lemma mid_le i j x : (i <= j)%nat -> T x -> R (mid j (mid i x)) (mid j x).
Proof.
  intros L H. unfold mid at 1 3. apply a_incr; auto using mid_T. eapply R_trans; [|apply (b_after i j); auto].
  apply b_incr; auto using mid_T. apply a_below. auto.
Qed.

Lemma Mid_ge p q x : (q <= p)%nat -> T x -> R (Mid p x) (Mid q (Mid p x)).
Proof.
  intros L H. induction q as [|q IH]; [apply R_refl|]. cbn [Mid]. destruct p as [|p]; [lia|].
  eapply R_trans; [|apply mid_incr; [| |apply IH; lia]; auto using Mid_T]. cbn [Mid]. apply mid_ge; [lia|apply Mid_T; exact H].
Qed.
Lemma mid_Mid_le p q x : (q <= p)%nat -> T x -> R (mid p (Mid q x)) (mid p x).
Proof.
  intros L H. induction q as [|q IH]; [apply R_refl|]. cbn [Mid]. eapply R_trans; [apply mid_le; [exact L|apply Mid_T; exact H]|]. apply IH. lia.
Qed.
Lemma Mid_le p x : T x -> R (Mid p (Mid p x)) (Mid p x).
Proof.
  intros H. destruct p as [|p]; [apply R_refl|]. cbn [Mid]. eapply R_trans; [apply mid_Mid_le; [lia|]; auto using mid_T, Mid_T|].
  apply mid_le; [lia|apply Mid_T; exact H].
Qed.

Lemma Mid_sieve p n x : (p <= n)%nat -> T x -> R (Mid n x) (Mid n (Mid p x)) /\ R (Mid n (Mid p x)) (Mid n x).
Proof.
  intros L H. induction L as [|n L IH].
  - split; [apply Mid_ge; auto|apply Mid_le; exact H].
  - cbn [Mid]. split; apply mid_incr; auto using Mid_T; apply IH.
Qed.

Lemma Mid_bounds n x : T x -> R (a n x) (Mid n x) /\ R (Mid n x) (b n x).
Proof.
  intros H. split.
  - eapply R_trans; [|apply Mid_incr; [apply Ta; exact H|exact H|apply a_below; exact H]].
    enough (forall q, (q <= n)%nat -> R (a n x) (Mid q (a n x))) by auto. induction q as [|q IH]; intros L; [apply R_refl|]. cbn [Mid].
    eapply R_trans; [|apply mid_incr; [| |apply IH; lia]; auto using Mid_T]. eapply R_trans; [apply (a_absorb (S q) n); auto|]. apply a_incr; auto.
  - eapply R_trans; [apply Mid_incr; [exact H|apply Tb; exact H|apply b_above; exact H]|].
    enough (forall q, (q <= n)%nat -> R (Mid q (b n x)) (b n x)) as K.
    { apply K. lia. }
    induction q as [|q IH]; intros L; [apply R_refl|]. cbn [Mid].
    eapply R_trans; [apply mid_incr; [| |apply IH; lia]; auto using Mid_T|]. eapply R_trans; [apply a_below; auto|].
    apply (b_absorb (S q) n); auto.
Qed.
End Sieve.

(** ** The functions computed by openings and closings of all sizes *)
Section Families.
Variables (t : ity) (s : dims) (se : strelt).
Hypothesis HN : se_points se <> [].
Hypothesis HP : planar se s.
Definition dl (n : nat) := Nat.iter n (can1 px_sup (tmin t) s se).
Definition er (n : nat) := Nat.iter n (can1 px_inf (tmax t) s (transpose se)).
Definition opn (n : nat) (F : Z -> Z -> Z -> Z) := dl n (er n F).
Definition cls (n : nat) (F : Z -> Z -> Z -> Z) := er n (dl n F).

Lemma dl_typed n F : typedf t s F -> typedf t s (dl n F).
Proof. apply dn_typed. exact HN. Qed.
Lemma er_typed n F : typedf t s F -> typedf t s (er n F).
Proof. apply en_typed. exact HN. Qed.
Lemma opn_typed n F : typedf t s F -> typedf t s (opn n F).
Proof. intros H. apply dl_typed, er_typed, H. Qed.
Lemma cls_typed n F : typedf t s F -> typedf t s (cls n F).
Proof. intros H. apply er_typed, dl_typed, H. Qed.
Lemma dl_incr n F G : typedf t s F -> typedf t s G -> leq s F G -> leq s (dl n F) (dl n G).
Proof. apply D_incr; assumption. Qed.
Lemma er_incr n F G : typedf t s F -> typedf t s G -> leq s F G -> leq s (er n F) (er n G).
Proof. apply E_incr; assumption. Qed.
Lemma opn_incr n F G : typedf t s F -> typedf t s G -> leq s F G -> leq s (opn n F) (opn n G).
Proof. intros TF TG H. apply dl_incr; auto using er_typed. apply er_incr; assumption. Qed.
Lemma cls_incr n F G : typedf t s F -> typedf t s G -> leq s F G -> leq s (cls n F) (cls n G).
Proof. intros TF TG H. apply er_incr; auto using dl_typed. apply dl_incr; assumption. Qed.
Lemma opn_below n F : typedf t s F -> leq s (opn n F) F.
Proof. apply DE_below; assumption. Qed.
Lemma cls_above n F : typedf t s F -> leq s F (cls n F).
Proof. apply ED_above; assumption. Qed.

Lemma dl_add n m F : dl (n + m) F = dl n (dl m F).
Proof. unfold dl. induction n as [|n IH]; [reflexivity|]. exact (f_equal (dl 1) IH). Qed.
Lemma er_add n m F : er (n + m) F = er n (er m F).
Proof. unfold er. induction n as [|n IH]; [reflexivity|]. exact (f_equal (er 1) IH). Qed.

Lemma opn_absorb n m F : (n <= m)%nat -> typedf t s F -> leq s (opn m F) (opn n (opn m F)).
Proof.
  intros L H. unfold opn at 1. unfold opn at 2. replace m with (n + (m - n))%nat at 1 3 by lia. rewrite !dl_add.
  set (Y := dl (m - n) (er m F)). assert (typedf t s Y) as TY by (apply dl_typed, er_typed, H).
  unfold opn. apply dl_incr; auto using er_typed, dl_typed. exact (cls_above n Y TY).
Qed.
Lemma cls_absorb n m F : (n <= m)%nat -> typedf t s F -> leq s (cls n (cls m F)) (cls m F).
Proof.
  intros L H. unfold cls at 2. unfold cls at 2. replace m with (n + (m - n))%nat at 1 3 by lia. rewrite !er_add.
  set (Y := er (m - n) (dl m F)). assert (typedf t s Y) as TY by (apply er_typed, dl_typed, H).
  unfold cls. apply er_incr; auto using er_typed, dl_typed. exact (opn_below n Y TY).
Qed.

Definition asfC (n : nat) := Mid _ opn cls n.
Definition asfO (n : nat) := Mid _ cls opn n.
Let gq F G := leq s G F.

Lemma gq_trans F G H : gq F G -> gq G H -> gq F H.
Proof. intros A B. eapply leq_trans; eassumption. Qed.

Lemma asfC_typed n F : typedf t s F -> typedf t s (asfC n F).
Proof. apply Mid_T; auto using opn_typed, cls_typed. Qed.
Lemma asfO_typed n F : typedf t s F -> typedf t s (asfO n F).
Proof. apply Mid_T; auto using opn_typed, cls_typed. Qed.
Lemma asfC_incr n F G : typedf t s F -> typedf t s G -> leq s F G -> leq s (asfC n F) (asfC n G).
Proof. apply (Mid_incr _ (typedf t s) (leq s) opn cls); auto using opn_typed, cls_typed, opn_incr, cls_incr. Qed.
Lemma asfO_incr n F G : typedf t s F -> typedf t s G -> leq s F G -> leq s (asfO n F) (asfO n G).
Proof. apply (Mid_incr _ (typedf t s) (leq s) cls opn); auto using opn_typed, cls_typed, opn_incr, cls_incr. Qed.

Lemma asfC_sieve p n F : (p <= n)%nat -> typedf t s F -> leq s (asfC n F) (asfC n (asfC p F)) /\ leq s (asfC n (asfC p F)) (asfC n F).
Proof.
  apply (Mid_sieve _ (typedf t s) (leq s) opn cls); auto using opn_typed, cls_typed, opn_incr, cls_incr, opn_below, cls_above, opn_absorb, cls_absorb, leq_refl.
  intros; eapply leq_trans; eassumption.
Qed.
Lemma asfO_sieve p n F : (p <= n)%nat -> typedf t s F -> leq s (asfO n (asfO p F)) (asfO n F) /\ leq s (asfO n F) (asfO n (asfO p F)).
Proof.
  apply (Mid_sieve _ (typedf t s) gq cls opn); unfold gq; auto using opn_typed, cls_typed, opn_incr, cls_incr, opn_below, cls_above, opn_absorb, cls_absorb, leq_refl.
  intros; eapply leq_trans; eassumption.
Qed.
Lemma asfC_bounds n F : typedf t s F -> leq s (opn n F) (asfC n F) /\ leq s (asfC n F) (cls n F).
Proof.
  apply (Mid_bounds _ (typedf t s) (leq s) opn cls); auto using opn_typed, cls_typed, opn_incr, cls_incr, opn_below, cls_above, opn_absorb, cls_absorb, leq_refl.
  intros; eapply leq_trans; eassumption.
Qed.
Lemma asfO_bounds n F : typedf t s F -> leq s (asfO n F) (cls n F) /\ leq s (opn n F) (asfO n F).
Proof.
  apply (Mid_bounds _ (typedf t s) gq cls opn); unfold gq; auto using opn_typed, cls_typed, opn_incr, cls_incr, opn_below, cls_above, opn_absorb, cls_absorb, leq_refl.
  intros; eapply leq_trans; eassumption.
Qed.

(** Openings of several sizes. *)
Lemma opn_opn n m F : typedf t s F -> forall x y z, inside s x y z -> opn n (opn m F) x y z = opn (Nat.max n m) F x y z.
Proof.
  intros TF x y z Hi. apply Z.le_antisymm; [|].
  - destruct (Nat.le_gt_cases n m) as [L|L].
    + rewrite Nat.max_r by lia. apply opn_below; auto using opn_typed.
    + rewrite Nat.max_l by lia. apply opn_incr; auto using opn_typed, opn_below.
  - destruct (Nat.le_gt_cases n m) as [L|L].
    + rewrite Nat.max_r by lia. apply opn_absorb; auto.
    + rewrite Nat.max_l by lia. apply (a_after _ (typedf t s) (leq s) opn); auto using opn_typed, opn_incr, opn_below, opn_absorb; [intros; eapply leq_trans; eassumption|lia].
Qed.
Lemma opn_decr n m F : (n <= m)%nat -> typedf t s F -> leq s (opn m F) (opn n F).
Proof.
  intros L TF. eapply leq_trans; [apply (opn_absorb n m); auto|]. apply opn_incr; auto using opn_typed. apply opn_below. exact TF.
Qed.
End Families.
