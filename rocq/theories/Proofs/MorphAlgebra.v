From Verif Require Export Proofs.MorphProofs.

Lemma iter_front {A} (f : A -> A) n a : Nat.iter (S n) f a = Nat.iter n f (f a).
Proof. induction n as [|n IH]; [reflexivity|]. change (f (Nat.iter (S n) f a) = f (Nat.iter n f (f a))). rewrite IH. reflexivity. Qed.

(** ** The passes as functions *)
Definition can1 (op : Z -> Z -> Z) (bv : Z) (s : dims) (se : strelt) (F : Z -> Z -> Z -> Z) : Z -> Z -> Z -> Z := fun x y z =>
  match se_points se with
  | [] => 0
  | p0 :: pts => fold_left (fun acc p => op acc (gval bv s (se_odd se) F p x y z)) pts (gval bv s (se_odd se) F p0 x y z)
  end.

Lemma typed_nonempty se : typed_se se -> se_points se <> [].
Proof.
  intros H E. unfold typed_se in H. rewrite E in H. destruct (se_type se).
  1, 3, 5, 10: apply H; reflexivity.
  7: exact H.
  all: destruct H as (_ & H); apply (proj2 (H (0, 0, 0))); vm_compute; left; reflexivity.
Qed.

Section Can.
Variables (op : Z -> Z -> Z) (Rel : Z -> Z -> Prop) (bv : Z) (s : dims).
Hypothesis op_lub : forall a b c, Rel (op a b) c <-> Rel a c /\ Rel b c.
Hypothesis Rel_eq : forall a b, (forall c, Rel a c <-> Rel b c) -> a = b.
Variable se : strelt.
Hypothesis HN : se_points se <> [].

Lemma can1_pass F : pass1 Rel bv s se F (can1 op bv s se F).
Proof.
  intros x y z _. unfold can1. destruct (se_points se) as [|p0 pts] eqn:E; [congruence|].
  apply (fold_lub op Rel op_lub (fun p => gval bv s (se_odd se) F p x y z)).
Qed.

Lemma cann_pass n F : passn Rel bv s n se F (Nat.iter n (can1 op bv s se) F).
Proof. induction n as [|n IH]; [cbn; auto|]. eexists. split; [exact IH|]. apply can1_pass. Qed.

Lemma passn_can n F R : passn Rel bv s n se F R -> forall x y z, inside s x y z -> R x y z = Nat.iter n (can1 op bv s se) F x y z.
Proof. intros H x y z Hi. apply (passn_fun Rel bv s Rel_eq n se F); [exact H|apply cann_pass|exact Hi]. Qed.
End Can.

(** ** Order *)
Definition leq (s : dims) (F G : Z -> Z -> Z -> Z) : Prop := forall x y z, inside s x y z -> F x y z <= G x y z.
Definition typedf (t : ity) (s : dims) (F : Z -> Z -> Z -> Z) : Prop := forall x y z, inside s x y z -> inty t (F x y z).

Lemma leq_refl s F : leq s F F.
Proof. intros x y z _. lia. Qed.
Lemma leq_trans s F G H : leq s F G -> leq s G H -> leq s F H.
Proof. intros A B x y z Hi. specialize (A x y z Hi). specialize (B x y z Hi). lia. Qed.

Lemma le_img_leq s F G : wf_dims s -> (le_img (mk_img s F) (mk_img s G) <-> leq s F G).
Proof.
  intros Hw. split.
  - intros H x y z Hi. apply (H x y z); apply mk_img_is; auto.
  - intros H x y z u v Hu Hv. apply mk_img_is in Hu as (Hi & ->); [|exact Hw]. apply mk_img_is in Hv as (_ & ->); [|exact Hw]. apply H. exact Hi.
Qed.

Lemma typed_pxv t im : wf_img im -> typed_img t im -> typedf t (sz im) (pxv im).
Proof.
  intros Hw HT x y z Hi. destruct (pixel_exists im x y z Hw Hi) as (v & Hv). rewrite (pxv_is _ _ _ _ _ Hv). unfold typed_img in HT. rewrite Forall_forall in HT.
  apply HT. eapply rd_In. apply Hv.
Qed.

Lemma typed_mk t s F : typedf t s F -> typed_img t (mk_img s F).
Proof.
  intros H. unfold typed_img, mk_img. cbn. apply Forall_forall. intros v Hv. apply in_map_iff in Hv as ([[x y] z] & <- & Hi). apply H. apply grid_In in Hi. exact Hi.
Qed.

Section Adj.
Variables (t : ity) (s : dims) (se : strelt).
Hypothesis HN : se_points se <> [].
Hypothesis HP : planar se s.

Let d := can1 px_sup (tmin t) s se.
Let e := can1 px_inf (tmax t) s (transpose se).

Lemma HNt : se_points (transpose se) <> [].
Proof.
  intros E. destruct (se_points se) as [|p l] eqn:E'; [congruence|].
  assert (In (refl_pt (se_odd se) p) (se_points (transpose se))) as Hp by (rewrite transpose_In, refl_invol, E'; cbn; auto).
  rewrite E in Hp. destruct Hp.
Qed.

Lemma d_le_iff F G : typedf t s G ->
  (leq s (d F) G <-> forall x y z x' y' z', inside s x y z -> inside s x' y' z' -> sees se x y z x' y' z' -> F x' y' z' <= G x y z).
Proof.
  intros HG. split.
  - intros H x y z x' y' z' Hi Hi' (p & Hp & -> & -> & ->). pose proof (proj1 (can1_pass px_sup Z.le (tmin t) s sup_lub se HN F x y z Hi _) (H x y z Hi) p Hp) as K.
    unfold gval in K. rewrite bo_in in K by exact Hi'. exact K.
  - intros H x y z Hi. apply (can1_pass px_sup Z.le (tmin t) s sup_lub se HN F x y z Hi). intros p Hp. unfold gval, bo. destruct (insideb s _ _ _) eqn:E.
    + apply insideb_spec in E. apply H; auto. exists p. auto.
    + apply HG. exact Hi.
Qed.

Lemma e_ge_iff F G : typedf t s F ->
  (leq s F (e G) <-> forall x y z x' y' z', inside s x y z -> inside s x' y' z' -> sees se x y z x' y' z' -> F x' y' z' <= G x y z).
Proof.
  intros HF. split.
  - intros H x y z x' y' z' Hi Hi' Hs. apply (sees_transpose se x' y' z' x y z (planar_z se s z' HP (proj2 (proj2 Hi')))) in Hs. destruct Hs as (p & Hp & -> & -> & ->).
    assert (e G x' y' z' >= F x' y' z') as H1 by (specialize (H x' y' z' Hi'); lia).
    pose proof (proj1 (can1_pass px_inf Z.ge (tmax t) s inf_lub (transpose se) HNt G x' y' z' Hi' _) H1 p Hp) as K.
    unfold gval in K. rewrite bo_in in K by exact Hi. cbn [transpose se_odd] in *. lia.
  - intros H x y z Hi. assert (e G x y z >= F x y z); [|lia].
    apply (can1_pass px_inf Z.ge (tmax t) s inf_lub (transpose se) HNt G x y z Hi). intros p Hp. unfold gval, bo. destruct (insideb s _ _ _) eqn:E.
    + apply insideb_spec in E. apply Z.le_ge. apply H; auto. apply (sees_transpose se x y z _ _ _ (planar_z se s z HP (proj2 (proj2 Hi)))). exists p. auto.
    + apply Z.le_ge. apply HF. exact Hi.
Qed.

Lemma adj1 F G : typedf t s F -> typedf t s G -> (leq s (d F) G <-> leq s F (e G)).
Proof. intros HF HG. rewrite d_le_iff, e_ge_iff by assumption. reflexivity. Qed.

Lemma d_typed F : typedf t s F -> typedf t s (d F).
Proof.
  intros HF x y z Hi. destruct (lub_le_greatest _ _ _ (can1_pass px_sup Z.le (tmin t) s sup_lub se HN F x y z Hi)) as ((p & Hp & E) & _). fold d in E. rewrite <- E.
  unfold gval, bo. destruct (insideb s _ _ _) eqn:B; [apply HF; apply insideb_spec; exact B|apply inty_min].
Qed.
Lemma e_typed F : typedf t s F -> typedf t s (e F).
Proof.
  intros HF x y z Hi. destruct (lub_ge_least _ _ _ (can1_pass px_inf Z.ge (tmax t) s inf_lub (transpose se) HNt F x y z Hi)) as ((p & Hp & E) & _). fold e in E. rewrite <- E.
  unfold gval, bo. destruct (insideb s _ _ _) eqn:B; [apply HF; apply insideb_spec; exact B|apply inty_max].
Qed.

Lemma dn_typed n F : typedf t s F -> typedf t s (Nat.iter n d F).
Proof. intros HF. induction n as [|n IH]; [exact HF|]. apply d_typed. exact IH. Qed.
Lemma en_typed n F : typedf t s F -> typedf t s (Nat.iter n e F).
Proof. intros HF. induction n as [|n IH]; [exact HF|]. apply e_typed. exact IH. Qed.

Lemma adjn n F G : typedf t s F -> typedf t s G -> (leq s (Nat.iter n d F) G <-> leq s F (Nat.iter n e G)).
Proof.
  intros HF. revert G. induction n as [|n IH]; intros G HG; [reflexivity|]. rewrite (iter_front e). change (Nat.iter (S n) d F) with (d (Nat.iter n d F)).
  rewrite adj1 by (auto using dn_typed). apply IH. apply e_typed. exact HG.
Qed.

(** Consequences of the adjunction. *)
Section Filters.
Variable n : nat.
Let D := Nat.iter n d.
Let E := Nat.iter n e.

Lemma D_incr F G : typedf t s F -> typedf t s G -> leq s F G -> leq s (D F) (D G).
Proof.
  intros HF HG H. apply (adjn n F (D G)); [exact HF|apply dn_typed; exact HG|]. eapply leq_trans; [exact H|].
  apply (adjn n G (D G)); [exact HG|apply dn_typed; exact HG|apply leq_refl].
Qed.
Lemma E_incr F G : typedf t s F -> typedf t s G -> leq s F G -> leq s (E F) (E G).
Proof.
  intros HF HG H. apply (adjn n (E F) G); [apply en_typed; exact HF|exact HG|]. eapply leq_trans; [|exact H].
  apply (adjn n (E F) F); [apply en_typed; exact HF|exact HF|apply leq_refl].
Qed.
Lemma DE_below G : typedf t s G -> leq s (D (E G)) G.
Proof. intros HG. apply (adjn n (E G) G); [apply en_typed; exact HG|exact HG|apply leq_refl]. Qed.
Lemma ED_above F : typedf t s F -> leq s F (E (D F)).
Proof. intros HF. apply (adjn n F (D F)); [exact HF|apply dn_typed; exact HF|apply leq_refl]. Qed.

Lemma EDE_above G : typedf t s G -> leq s (E G) (E (D (E G))).
Proof. intros HG. apply ED_above. apply en_typed. exact HG. Qed.
Lemma open_idem G : typedf t s G -> leq s (D (E G)) (D (E (D (E G)))).
Proof.
  intros HG. apply D_incr; [apply en_typed; exact HG| |apply EDE_above; exact HG]. apply en_typed, dn_typed, en_typed. exact HG.
Qed.
Lemma close_idem F : typedf t s F -> leq s (E (D (E (D F)))) (E (D F)).
Proof.
  intros HF. apply E_incr; [|apply dn_typed; exact HF|]. { apply dn_typed, en_typed, dn_typed. exact HF. }
  apply DE_below. apply dn_typed. exact HF.
Qed.
End Filters.
End Adj.
