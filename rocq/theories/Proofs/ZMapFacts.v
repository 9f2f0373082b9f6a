From Verif Require Export Model.ZMap Proofs.PreludeFacts.
From Coq Require Export Sorted.

(** Keys in strictly increasing order. *)
Definition msorted {A} (m : zmap A) : Prop := StronglySorted Z.lt (mkeys m).

Lemma msorted_nil {A} : msorted (@nil (Z * A)).
Proof. constructor. Qed.

Lemma mfind_In {A} k (v : A) m : mfind k m = Some v -> In (k, v) m.
Proof.
  induction m as [|[k' v'] m IH]; cbn; [discriminate|].
  destruct (Z.eqb_spec k k') as [->|]; [intros [= ->]; auto|auto].
Qed.

Lemma mfind_key {A} k (v : A) m : mfind k m = Some v -> In k (mkeys m).
Proof. intros H. apply mfind_In in H. apply (in_map fst) in H. exact H. Qed.

Lemma In_mkeys_mfind {A} k (m : zmap A) : In k (mkeys m) <-> mfind k m <> None.
Proof.
  induction m as [|[k' v'] m IH]; cbn; [tauto|].
  destruct (Z.eqb_spec k k') as [->|N]; [split; [discriminate|auto]|].
  rewrite <- IH. split; [intros [E|H]; [congruence|exact H]|auto].
Qed.

Lemma msorted_In {A} k (v : A) m : msorted m -> In (k, v) m -> mfind k m = Some v.
Proof.
  unfold msorted. induction m as [|[k' v'] m IH]; cbn; [tauto|].
  intros HS [E|H].
  - injection E as -> ->. rewrite Z.eqb_refl. reflexivity.
  - inversion HS as [|? ? HS' HF]; subst. destruct (Z.eqb_spec k k') as [->|N].
    + exfalso. rewrite Forall_forall in HF. apply (in_map fst) in H. specialize (HF _ H). cbn in HF. lia.
    + auto.
Qed.

Lemma mkeys_mput {A} k (v : A) m x : In x (mkeys (mput k v m)) <-> x = k \/ In x (mkeys m).
Proof.
  induction m as [|[k' v'] m IH]; cbn; [intuition|].
  destruct (Z.ltb_spec k k'); cbn; [intuition|].
  destruct (Z.eqb_spec k k') as [->|N]; cbn; [intuition|]. rewrite IH. intuition.
Qed.

Lemma msorted_mput {A} k (v : A) m : msorted m -> msorted (mput k v m).
Proof.
  unfold msorted. induction m as [|[k' v'] m IH]; cbn; intros HS.
  - repeat constructor.
  - inversion HS as [|? ? HS' HF]; subst. rewrite Forall_forall in HF.
    destruct (Z.ltb_spec k k').
    + constructor; [exact HS|]. apply Forall_forall. intros x [<-|Hx]; [assumption|]. specialize (HF _ Hx). cbn in *. lia.
    + destruct (Z.eqb_spec k k') as [->|N].
      * constructor; [exact HS'|apply Forall_forall; exact HF].
      * cbn. constructor; [apply IH; exact HS'|]. apply Forall_forall. intros x Hx.
        apply mkeys_mput in Hx as [->|Hx]; [lia|auto].
Qed.

Lemma mfind_mput {A} k (v : A) m j : msorted m ->
  mfind j (mput k v m) = if j =? k then Some v else mfind j m.
Proof.
  unfold msorted. induction m as [|[k' v'] m IH]; cbn; intros HS; [reflexivity|].
  inversion HS as [|? ? HS' HF]; subst. rewrite Forall_forall in HF.
  destruct (Z.ltb_spec k k'); cbn; [reflexivity|].
  destruct (Z.eqb_spec k k') as [->|N]; cbn.
  - destruct (Z.eqb_spec j k'); reflexivity.
  - rewrite IH by assumption. destruct (Z.eqb_spec j k'), (Z.eqb_spec j k); congruence || lia || reflexivity.
Qed.

Lemma mkeys_minsert {A} k (v : A) m x : In x (mkeys (minsert k v m)) <-> x = k \/ In x (mkeys m).
Proof.
  unfold minsert. destruct (mfind k m) eqn:E; [|apply mkeys_mput].
  split; [auto|]. intros [->|H]; [|exact H]. eapply mfind_key; eauto.
Qed.

Lemma msorted_minsert {A} k (v : A) m : msorted m -> msorted (minsert k v m).
Proof. unfold minsert. destruct (mfind k m); [auto|apply msorted_mput]. Qed.

Lemma mfind_minsert {A} k (v : A) m j : msorted m ->
  mfind j (minsert k v m) = match mfind j m with Some u => Some u | None => if j =? k then Some v else None end.
Proof.
  intros HS. unfold minsert. destruct (mfind k m) eqn:E.
  - destruct (mfind j m) eqn:E2; [reflexivity|]. destruct (Z.eqb_spec j k) as [->|]; congruence.
  - rewrite mfind_mput by assumption. destruct (Z.eqb_spec j k) as [->|].
    + rewrite E. reflexivity.
    + destruct (mfind j m); reflexivity.
Qed.

Lemma mkeys_mdel {A} k (m : zmap A) x : In x (mkeys (mdel k m)) -> In x (mkeys m).
Proof.
  induction m as [|[k' v'] m IH]; cbn; [tauto|]. destruct (Z.eqb_spec k k'); cbn; intuition.
Qed.

Lemma msorted_mdel {A} k (m : zmap A) : msorted m -> msorted (mdel k m).
Proof.
  unfold msorted. induction m as [|[k' v'] m IH]; cbn; intros HS; [constructor|].
  inversion HS as [|? ? HS' HF]; subst. destruct (Z.eqb_spec k k'); [exact HS'|].
  cbn. constructor; [auto|]. rewrite Forall_forall in *. intros x Hx. apply mkeys_mdel in Hx. auto.
Qed.

Lemma mfind_mdel {A} k (m : zmap A) j : msorted m ->
  mfind j (mdel k m) = if j =? k then None else mfind j m.
Proof.
  unfold msorted. induction m as [|[k' v'] m IH]; cbn; intros HS; [destruct (j =? k); reflexivity|].
  inversion HS as [|? ? HS' HF]; subst. rewrite Forall_forall in HF.
  destruct (Z.eqb_spec k k') as [->|N]; cbn.
  - destruct (Z.eqb_spec j k') as [E0|]; [subst|reflexivity].
    destruct (mfind k' m) eqn:E; [|reflexivity]. apply mfind_key in E. specialize (HF _ E). lia.
  - rewrite IH by assumption. destruct (Z.eqb_spec j k'), (Z.eqb_spec j k); congruence || reflexivity.
Qed.

Lemma mfind_None_keys {A} k (m : zmap A) : ~ In k (mkeys m) -> mfind k m = None.
Proof. intros H. destruct (mfind k m) eqn:E; [|reflexivity]. apply mfind_key in E. tauto. Qed.

Lemma StronglySorted_lt_NoDup l : StronglySorted Z.lt l -> NoDup l.
Proof.
  induction 1 as [|a l HS IH HF]; constructor; auto. intros H. rewrite Forall_forall in HF.
  specialize (HF _ H). lia.
Qed.

Lemma msorted_NoDup {A} (m : zmap A) : msorted m -> NoDup (mkeys m).
Proof. apply StronglySorted_lt_NoDup. Qed.
