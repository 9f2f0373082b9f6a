(** Consequences: the algebra of reconstructions. *)
From Verif Require Export Proofs.GeodesicProofs.

Section Algebra.
Context (se : strelt).

Lemma flows_le_mask marker mask x y z v b : flows Z.min se marker mask x y z v -> pixel_is mask x y z b -> v <= b.
Proof.
  intros H Hb. destruct H as [x y z a b' _ Hb'|x y z x' y' z' v b' _ _ Hb']; rewrite (pixel_is_fun _ _ _ _ _ _ Hb' Hb); lia.
Qed.
Lemma flows_ge_mask marker mask x y z v b : flows Z.max se marker mask x y z v -> pixel_is mask x y z b -> b <= v.
Proof.
  intros H Hb. destruct H as [x y z a b' _ Hb'|x y z x' y' z' v b' _ _ Hb']; rewrite (pixel_is_fun _ _ _ _ _ _ Hb' Hb); lia.
Qed.

Lemma rebuilt_fun marker mask R R' : rebuilt se marker mask R -> rebuilt se marker mask R' -> R = R'.
Proof.
  intros (S1 & W1 & H1) (S2 & W2 & H2). apply img_ext; [exact W1|exact W2|congruence|]. intros x y z v Hv.
  destruct (pixel_exists R' x y z W2) as (v' & Hv'); [rewrite S2, <- S1; apply Hv|].
  destruct (H1 _ _ _ _ Hv) as (A & B), (H2 _ _ _ _ Hv') as (A' & B'). pose proof (B _ A'). pose proof (B' _ A). assert (v = v') by lia. subst. exact Hv'.
Qed.
Lemma dual_rebuilt_fun marker mask R R' : dual_rebuilt se marker mask R -> dual_rebuilt se marker mask R' -> R = R'.
Proof.
  intros (S1 & W1 & H1) (S2 & W2 & H2). apply img_ext; [exact W1|exact W2|congruence|]. intros x y z v Hv.
  destruct (pixel_exists R' x y z W2) as (v' & Hv'); [rewrite S2, <- S1; apply Hv|].
  destruct (H1 _ _ _ _ Hv) as (A & B), (H2 _ _ _ _ Hv') as (A' & B'). pose proof (B _ A'). pose proof (B' _ A). assert (v = v') by lia. subst. exact Hv'.
Qed.

Lemma rebuilt_between marker mask R x y z a b v : rebuilt se marker mask R -> pixel_is marker x y z a -> pixel_is mask x y z b -> pixel_is R x y z v ->
  Z.min a b <= v <= b.
Proof.
  intros (_ & _ & H) Ha Hb Hv. destruct (H _ _ _ _ Hv) as (A & B). split; [apply B; constructor; assumption|].
  eapply flows_le_mask; eassumption.
Qed.
Lemma dual_rebuilt_between marker mask R x y z a b v : dual_rebuilt se marker mask R -> pixel_is marker x y z a -> pixel_is mask x y z b -> pixel_is R x y z v ->
  b <= v <= Z.max a b.
Proof.
  intros (_ & _ & H) Ha Hb Hv. destruct (H _ _ _ _ Hv) as (A & B). split; [eapply flows_ge_mask; eassumption|]. apply B; constructor; assumption.
Qed.

(** Comparison of the flows of two markers on two masks. *)
Lemma flows_mono marker marker' mask mask' : wf_img marker' -> wf_img mask' -> sz marker' = sz mask -> sz mask' = sz mask ->
  (forall x y z a a', pixel_is marker x y z a -> pixel_is marker' x y z a' -> a <= a') -> le_img mask mask' ->
  forall x y z v, flows Z.min se marker mask x y z v -> exists v', v <= v' /\ flows Z.min se marker' mask' x y z v'.
Proof.
  intros W1 W2 S1 S2 Hm Hk x y z v H. induction H as [x y z a b Ha Hb|x y z x' y' z' v b Hf (v' & Hle & IH) Hse Hb].
  - pose proof (proj1 Hb) as Hi. destruct (pixel_exists marker' x y z W1) as (a' & Ha'); [rewrite S1; exact Hi|].
    destruct (pixel_exists mask' x y z W2) as (b' & Hb'); [rewrite S2; exact Hi|].
    exists (Z.min a' b'). split; [|constructor; assumption]. pose proof (Hm _ _ _ _ _ Ha Ha'). pose proof (Hk _ _ _ _ _ Hb Hb'). lia.
  - destruct (pixel_exists mask' x y z W2) as (b' & Hb'); [rewrite S2; exact (proj1 Hb)|].
    exists (Z.min v' b'). split; [pose proof (Hk _ _ _ _ _ Hb Hb'); lia|]. eapply flow_step; eassumption.
Qed.
Lemma flows_mono_dual marker marker' mask mask' : wf_img marker' -> wf_img mask' -> sz marker' = sz mask -> sz mask' = sz mask ->
  (forall x y z a a', pixel_is marker x y z a -> pixel_is marker' x y z a' -> a' <= a) -> le_img mask' mask ->
  forall x y z v, flows Z.max se marker mask x y z v -> exists v', v' <= v /\ flows Z.max se marker' mask' x y z v'.
Proof.
  intros W1 W2 S1 S2 Hm Hk x y z v H. induction H as [x y z a b Ha Hb|x y z x' y' z' v b Hf (v' & Hle & IH) Hse Hb].
  - pose proof (proj1 Hb) as Hi. destruct (pixel_exists marker' x y z W1) as (a' & Ha'); [rewrite S1; exact Hi|].
    destruct (pixel_exists mask' x y z W2) as (b' & Hb'); [rewrite S2; exact Hi|].
    exists (Z.max a' b'). split; [|constructor; assumption]. pose proof (Hm _ _ _ _ _ Ha Ha'). pose proof (Hk _ _ _ _ _ Hb' Hb). lia.
  - destruct (pixel_exists mask' x y z W2) as (b' & Hb'); [rewrite S2; exact (proj1 Hb)|].
    exists (Z.max v' b'). split; [pose proof (Hk _ _ _ _ _ Hb' Hb); lia|]. eapply flow_step; eassumption.
Qed.

Lemma rebuilt_increasing marker marker' mask mask' R R' : wf_img marker' -> wf_img mask' -> sz marker' = sz mask -> sz mask' = sz mask ->
  le_img marker marker' -> le_img mask mask' -> rebuilt se marker mask R -> rebuilt se marker' mask' R' -> le_img R R'.
Proof.
  intros W1 W2 S1 S2 Hm Hk (_ & _ & H) (_ & _ & H') x y z u v Hu Hv. destruct (H _ _ _ _ Hu) as (A & _), (H' _ _ _ _ Hv) as (_ & B).
  destruct (flows_mono marker marker' mask mask' W1 W2 S1 S2 Hm Hk _ _ _ _ A) as (v' & Hle & F). specialize (B _ F). lia.
Qed.
Lemma dual_rebuilt_increasing marker marker' mask mask' R R' : wf_img marker -> wf_img mask -> sz marker = sz mask' -> sz mask = sz mask' ->
  le_img marker marker' -> le_img mask mask' -> dual_rebuilt se marker mask R -> dual_rebuilt se marker' mask' R' -> le_img R R'.
Proof.
  intros W1 W2 S1 S2 Hm Hk (_ & _ & H) (_ & _ & H') x y z u v Hu Hv. destruct (H _ _ _ _ Hu) as (_ & B), (H' _ _ _ _ Hv) as (A & _).
  destruct (flows_mono_dual marker' marker mask' mask W1 W2 S1 S2 (fun x y z a a' p q => Hm x y z a' a q p) Hk _ _ _ _ A) as (v' & Hle & F). specialize (B _ F). lia.
Qed.

(** The flows of a reconstruction are flows of its marker. *)
Lemma flows_rebuilt marker mask R : rebuilt se marker mask R -> forall x y z v, flows Z.min se R mask x y z v -> exists v', v <= v' /\ flows Z.min se marker mask x y z v'.
Proof.
  intros (_ & _ & H) x y z v F. induction F as [x y z a b Ha Hb|x y z x' y' z' v b Hf (v' & Hle & IH) Hse Hb].
  - exists a. split; [lia|]. apply (H _ _ _ _ Ha).
  - exists (Z.min v' b). split; [lia|]. eapply flow_step; eassumption.
Qed.
Lemma flows_dual_rebuilt marker mask R : dual_rebuilt se marker mask R -> forall x y z v, flows Z.max se R mask x y z v -> exists v', v' <= v /\ flows Z.max se marker mask x y z v'.
Proof.
  intros (_ & _ & H) x y z v F. induction F as [x y z a b Ha Hb|x y z x' y' z' v b Hf (v' & Hle & IH) Hse Hb].
  - exists a. split; [lia|]. apply (H _ _ _ _ Ha).
  - exists (Z.max v' b). split; [lia|]. eapply flow_step; eassumption.
Qed.

Lemma rebuilt_idem marker mask R : wf_img mask -> rebuilt se marker mask R -> rebuilt se R mask R.
Proof.
  intros Wk HR. pose proof HR as (S1 & W1 & H). split; [exact S1|]. split; [exact W1|]. intros x y z v Hv. destruct (H _ _ _ _ Hv) as (A & B). split.
  - destruct (pixel_exists mask x y z Wk) as (b & Hb); [rewrite <- S1; apply Hv|].
    pose proof (flows_le_mask _ _ _ _ _ _ _ A Hb). replace v with (Z.min v b) by lia. constructor; assumption.
  - intros u Hu. destruct (flows_rebuilt _ _ _ HR _ _ _ _ Hu) as (u' & L & F). specialize (B _ F). lia.
Qed.
Lemma dual_rebuilt_idem marker mask R : wf_img mask -> dual_rebuilt se marker mask R -> dual_rebuilt se R mask R.
Proof.
  intros Wk HR. pose proof HR as (S1 & W1 & H). split; [exact S1|]. split; [exact W1|]. intros x y z v Hv. destruct (H _ _ _ _ Hv) as (A & B). split.
  - destruct (pixel_exists mask x y z Wk) as (b & Hb); [rewrite <- S1; apply Hv|].
    pose proof (flows_ge_mask _ _ _ _ _ _ _ A Hb). replace v with (Z.max v b) by lia. constructor; assumption.
  - intros u Hu. destruct (flows_dual_rebuilt _ _ _ HR _ _ _ _ Hu) as (u' & L & F). specialize (B _ F). lia.
Qed.

(** Duality. *)
Lemma negative_at t a b x y z v : wf_img a -> negative t a b -> pixel_is b x y z v -> exists u, pixel_is a x y z u /\ v = tmin t + tmax t - u.
Proof.
  intros W (S & _ & H) Hv. destruct (pixel_exists a x y z W) as (u & Hu); [rewrite <- S; apply Hv|]. exists u. split; [exact Hu|].
  eapply pixel_is_fun; [exact Hv|apply H; exact Hu].
Qed.
Lemma negative_back t a b : wf_img a -> negative t a b -> negative t b a.
Proof.
  intros W N. pose proof N as (S & _ & _). split; [auto|]. split; [exact W|]. intros x y z v Hv.
  destruct (negative_at t a b x y z v W N Hv) as (u & Hu & ->). replace (tmin t + tmax t - (tmin t + tmax t - u)) with u by lia. exact Hu.
Qed.

Lemma flows_negative t marker marker' mask mask' : negative t marker marker' -> negative t mask mask' ->
  forall x y z v, flows Z.min se marker mask x y z v -> flows Z.max se marker' mask' x y z (tmin t + tmax t - v).
Proof.
  intros (_ & _ & N1) (_ & _ & N2) x y z v H. induction H as [x y z a b Ha Hb|x y z x' y' z' v b Hf IH Hse Hb].
  - replace (tmin t + tmax t - Z.min a b) with (Z.max (tmin t + tmax t - a) (tmin t + tmax t - b)) by lia. constructor; auto.
  - replace (tmin t + tmax t - Z.min v b) with (Z.max (tmin t + tmax t - v) (tmin t + tmax t - b)) by lia. eapply flow_step; eauto.
Qed.
Lemma flows_negative' t marker marker' mask mask' : negative t marker marker' -> negative t mask mask' ->
  forall x y z v, flows Z.max se marker mask x y z v -> flows Z.min se marker' mask' x y z (tmin t + tmax t - v).
Proof.
  intros (_ & _ & N1) (_ & _ & N2) x y z v H. induction H as [x y z a b Ha Hb|x y z x' y' z' v b Hf IH Hse Hb].
  - replace (tmin t + tmax t - Z.max a b) with (Z.min (tmin t + tmax t - a) (tmin t + tmax t - b)) by lia. constructor; auto.
  - replace (tmin t + tmax t - Z.max v b) with (Z.min (tmin t + tmax t - v) (tmin t + tmax t - b)) by lia. eapply flow_step; eauto.
Qed.
Lemma rebuilt_negative t marker marker' mask mask' R R' : wf_img marker -> wf_img mask -> negative t marker marker' -> negative t mask mask' ->
  rebuilt se marker mask R -> dual_rebuilt se marker' mask' R' -> negative t R R'.
Proof.
  intros Wm Wk N1 N2 (S1 & W1 & H1) (S2 & W2 & H2). pose proof (proj1 N2) as Sk. split; [congruence|]. split; [exact W2|]. intros x y z u Hu.
  destruct (pixel_exists R' x y z W2) as (v & Hv); [rewrite S2, Sk, <- S1; apply Hu|].
  replace (tmin t + tmax t - u) with v; [exact Hv|]. destruct (H1 _ _ _ _ Hu) as (A & B), (H2 _ _ _ _ Hv) as (A' & B').
  pose proof (B' _ (flows_negative t _ _ _ _ N1 N2 _ _ _ _ A)).
  pose proof (B _ (flows_negative' t _ _ _ _ (negative_back _ _ _ Wm N1) (negative_back _ _ _ Wk N2) _ _ _ _ A')). lia.
Qed.
End Algebra.

