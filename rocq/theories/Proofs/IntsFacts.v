From Verif Require Export Model.Ints Proofs.PreludeFacts.

Lemma tmin_le_tmax t : tmin t < tmax t.
Proof. destruct t; cbv; reflexivity. Qed.

Lemma tmin_le0 t : tmin t <= 0.
Proof. destruct t; cbv; discriminate. Qed.

Lemma tmax_pos t : 127 <= tmax t.
Proof. destruct t; cbv; discriminate. Qed.

Lemma wrap_range t z : inty t (wrap t z).
Proof.
  unfold inty, wrap, tmin, tmax. destruct t; cbn [is_signed nbits];
  match goal with |- context [?a mod ?b] => pose proof (Z.mod_pos_bound a b eq_refl) end; lia.
Qed.

Lemma wrap_id t z : inty t z -> wrap t z = z.
Proof.
  unfold inty, wrap, tmin, tmax. intros H. destruct t; cbn [is_signed nbits] in *;
  rewrite Z.mod_small; lia.
Qed.

Lemma wrap_mod t z : exists k, wrap t z = z + k * 2 ^ nbits t.
Proof.
  unfold wrap. destruct t; cbn [is_signed nbits].
  all: match goal with |- context [?a mod ?b] => exists (- (a / b)); pose proof (Z.div_mod a b ltac:(discriminate)) end; lia.
Qed.

Lemma inty_0 t : inty t 0.
Proof. destruct t; split; cbv; discriminate. Qed.

Lemma inty_max t : inty t (tmax t).
Proof. destruct t; split; cbv; discriminate. Qed.

Lemma inty_min t : inty t (tmin t).
Proof. destruct t; split; cbv; discriminate. Qed.
