(** geoDilate, geoErode, geoBuild and geoDualBuild: geodesic dilations repeated. *)
From Verif Require Export Proofs.GeodesicTheorems Proofs.MeasureProofs.

Lemma Zsum_le l : forall r, length l = length r -> (forall i a b, rd l i = Some a -> rd r i = Some b -> a <= b) -> Zsum l <= Zsum r /\ (Zsum l = Zsum r -> l = r).
Proof.
  induction l as [|a l IH]; intros [|b r] HL H; try discriminate; [split; [lia|reflexivity]|]. rewrite !Zsum_cons.
  assert (a <= b) by (apply (H 0); reflexivity). destruct (IH r) as [A B]; [cbn in HL; lia| |split; [lia|intros E; f_equal; [|apply B]; lia]].
  intros i u v Hu Hv. pose proof (rd_Some_range _ _ _ Hu). apply (H (i + 1)); unfold rd in *.
  - destruct (0 <=? i) eqn:E1; [|discriminate]. destruct (0 <=? i + 1) eqn:E2; [|lia]. replace (Z.to_nat (i + 1)) with (S (Z.to_nat i)) by lia. exact Hu.
  - destruct (0 <=? i) eqn:E1; [|discriminate]. destruct (0 <=? i + 1) eqn:E2; [|lia]. replace (Z.to_nat (i + 1)) with (S (Z.to_nat i)) by lia. exact Hv.
Qed.

Lemma Zsum_bound B l : (forall v, In v l -> 0 <= v <= B) -> 0 <= Zsum l <= B * Z.of_nat (length l).
Proof.
  induction l as [|a l IH]; intros H; [cbn; lia|]. rewrite Zsum_cons. specialize (IH (fun v Hv => H v (or_intror Hv))). specialize (H a (or_introl eq_refl)).
  cbn [length]. rewrite Nat2Z.inj_succ. lia.
Qed.

Lemma mk_rd s F G i a b : wf_dims s -> rd (pixs (mk_img s F)) i = Some a -> rd (pixs (mk_img s G)) i = Some b -> exists x y z, inside s x y z /\ a = F x y z /\ b = G x y z.
Proof.
  intros Hw Ha Hb. unfold mk_img in *. cbn in *. rewrite rd_map in Ha, Hb. destruct (rd (grid (dw s) (dh s) (dd s)) i) as [[[x y] z]|] eqn:E; [|discriminate].
  cbn in *. exists x, y, z. split; [|split; congruence]. apply grid_In. eapply rd_In. exact E.
Qed.

Lemma mk_len s F G : length (pixs (mk_img s F)) = length (pixs (mk_img s G)).
Proof. unfold mk_img. cbn. rewrite !map_length. reflexivity. Qed.

Lemma mk_key rev s F G : wf_dims s -> (forall x y z, inside s x y z -> key rev (F x y z) <= key rev (G x y z)) ->
  (if rev then Zsum (pixs (mk_img s G)) <= Zsum (pixs (mk_img s F)) else Zsum (pixs (mk_img s F)) <= Zsum (pixs (mk_img s G))) /\
  (Zsum (pixs (mk_img s F)) = Zsum (pixs (mk_img s G)) -> pixs (mk_img s F) = pixs (mk_img s G)).
Proof.
  intros Hw H. destruct rev.
  - destruct (Zsum_le (pixs (mk_img s G)) (pixs (mk_img s F))) as [A B]; [apply mk_len| |split; [exact A|intros E; symmetry; apply B; auto]].
    intros i a b Ha Hb. destruct (mk_rd s G F i a b Hw Ha Hb) as (x & y & z & Hi & -> & ->). specialize (H x y z Hi). unfold key in H. lia.
  - apply Zsum_le; [apply mk_len|].
    intros i a b Ha Hb. destruct (mk_rd s F G i a b Hw Ha Hb) as (x & y & z & Hi & -> & ->). exact (H x y z Hi).
Qed.

Lemma mk_inj s F G : wf_dims s -> pixs (mk_img s F) = pixs (mk_img s G) -> forall x y z, inside s x y z -> F x y z = G x y z.
Proof.
  intros Hw E x y z Hi. pose proof (proj2 (mk_img_is s F x y z _ Hw) (conj Hi eq_refl)) as (_ & P).
  pose proof (proj2 (mk_img_is s G x y z _ Hw) (conj Hi eq_refl)) as (_ & Q). cbn [sz mk_img] in P, Q. rewrite E in P. congruence.
Qed.

Section Iter.
Context (t : ity) (rev : bool) (lim : Z -> Z -> Z) (s : dims) (m M : Z -> Z -> Z -> Z) (T : (Z -> Z -> Z -> Z) -> Z -> Z -> Z -> Z).
Context (Hw : wf_dims s) (Ht : t = UINT8 \/ t = UINT16) (Hs : dw s * dh s * dd s < 2 ^ 31).
Context (Hlim : forall a b, key rev (lim a b) = Z.max (key rev a) (key rev b)).
Context (Hm : typedf t s m) (HM : typedf t s M).
Context (T_typed : forall F, typedf t s F -> typedf t s (T F)).
Context (T_self : forall F x y z, typedf t s F -> inside s x y z -> key rev (T F x y z) <= key rev (F x y z)).

Definition gstep (F : Z -> Z -> Z -> Z) : Z -> Z -> Z -> Z := fun x y z => lim (T F x y z) (M x y z).
Definition g0 : Z -> Z -> Z -> Z := fun x y z => lim (m x y z) (M x y z).
Notation G n := (Nat.iter n gstep g0).

Lemma lim_or a b : lim a b = a \/ lim a b = b.
Proof. specialize (Hlim a b). unfold key in Hlim. destruct rev; lia. Qed.

Lemma G_S n x y z : G (S n) x y z = lim (T (G n) x y z) (M x y z).
Proof. reflexivity. Qed.
Lemma G_0 x y z : G 0 x y z = lim (m x y z) (M x y z).
Proof. reflexivity. Qed.
Lemma G_typed n : typedf t s (G n).
Proof.
  induction n as [|n IH]; intros x y z Hi; [rewrite G_0|rewrite G_S].
  - destruct (lim_or (m x y z) (M x y z)) as [-> | ->]; [apply Hm|apply HM]; exact Hi.
  - destruct (lim_or (T (G n) x y z) (M x y z)) as [-> | ->]; [apply T_typed|apply HM]; auto.
Qed.
Lemma G_mask n x y z : key rev (M x y z) <= key rev (G n x y z).
Proof. destruct n; [rewrite G_0|rewrite G_S]; rewrite Hlim; lia. Qed.
Lemma G_desc n x y z : inside s x y z -> key rev (G (S n) x y z) <= key rev (G n x y z).
Proof.
  intros Hi. rewrite G_S, Hlim. pose proof (T_self (G n) x y z (G_typed n) Hi). pose proof (G_mask n x y z).
  apply Z.max_lub; assumption.
Qed.
Lemma G_first n x y z : inside s x y z -> key rev (G n x y z) <= key rev (g0 x y z).
Proof.
  intros Hi. induction n as [|n IH]; [apply Z.le_refl|]. eapply Z.le_trans; [apply G_desc; exact Hi|exact IH].
Qed.

Lemma mk_range F v : typedf t s F -> In v (pixs (mk_img s F)) -> 0 <= v <= 65535.
Proof using Ht.
  clear - Ht. intros HF Hv. pose proof (typed_mk t s F HF) as K. unfold typed_img in K. rewrite Forall_forall in K. specialize (K v Hv). unfold inty in K.
  destruct Ht as [-> | ->]; cbn in K; lia.
Qed.
Lemma mk_sum F : typedf t s F -> 0 <= Zsum (pixs (mk_img s F)) <= 65535 * (dw s * dh s * dd s).
Proof using Hw Ht.
  clear - Hw Ht. intros HF. pose proof (proj2 (mk_img_wf s F Hw)) as L. cbn [sz mk_img] in L. rewrite <- L.
  apply Zsum_bound. intros v Hv. eapply mk_range; eauto.
Qed.
Lemma mk_volume F : typedf t s F -> volume (mk_img s F) = Some (Zsum (pixs (mk_img s F))).
Proof using Hw Ht Hs.
  clear - Hw Ht Hs. intros HF. apply volume_ok; [apply mk_img_wf; exact Hw|].
  assert (map Z.abs (pixs (mk_img s F)) = pixs (mk_img s F)) as ->.
  { rewrite <- map_id. apply map_ext_in. intros v Hv. pose proof (mk_range F v HF Hv). lia. }
  pose proof (mk_sum F HF). lia.
Qed.

(** Budget of turns: the volume can only change this many times. *)
Definition budget : Z := 65535 * (dw s * dh s * dd s).
Definition spent (n : nat) : Z := if rev then budget - Zsum (pixs (mk_img s (G n))) else Zsum (pixs (mk_img s (G n))).
Lemma spent_pos n : 0 <= spent n.
Proof. unfold spent, budget. pose proof (mk_sum (G n) (G_typed n)). destruct rev; lia. Qed.

Context (step : nat -> img -> option img).
Context (Hstep : forall k F, typedf t s F -> step k (mk_img s F) = Some (mk_img s (gstep F))).

Lemma iter_ok n : forall k j, geo_iter step n k (mk_img s (G j)) = Some (mk_img s (G (n + j))).
Proof.
  induction n as [|n IH]; intros k j; [reflexivity|]. cbn [geo_iter]. rewrite Hstep by apply G_typed. cbn [option_bind].
  change (gstep (G j)) with (G (S j)). rewrite IH. rewrite Nat.add_succ_r. reflexivity.
Qed.

Lemma geo_loop_ok fuel : forall k j, spent j < Z.of_nat fuel ->
  exists n, geo_loop step fuel k (Zsum (pixs (mk_img s (G j)))) (mk_img s (G j)) = Some (Some (mk_img s (G n))) /\
    forall x y z, inside s x y z -> G (S n) x y z = G n x y z.
Proof.
  induction fuel as [|fuel IH]; intros k j Hf; [pose proof (spent_pos j); lia|]. cbn [geo_loop].
  rewrite Hstep by apply G_typed. cbn [option_bind]. change (gstep (G j)) with (G (S j)). rewrite mk_volume by apply G_typed. cbn [option_bind].
  destruct (mk_key rev s (G (S j)) (G j) Hw (fun x y z Hi => G_desc j x y z Hi)) as [A B].
  destruct (Zsum (pixs (mk_img s (G (S j)))) =? Zsum (pixs (mk_img s (G j)))) eqn:E.
  - apply Z.eqb_eq in E. specialize (B E). exists j. split.
    + do 2 f_equal. apply mk_img_ext. apply mk_inj; [exact Hw|exact B].
    + apply mk_inj; [exact Hw|exact B].
  - apply Z.eqb_neq in E. apply IH. unfold spent in *. destruct rev; lia.
Qed.

(** With the elementary transformation, the iterates are the flows of bounded length. *)
Context (nbr : Z -> Z -> Z -> Z -> Z -> Z -> Prop).
Context (T_le : forall F x y z x' y' z', typedf t s F -> inside s x y z -> inside s x' y' z' -> nbr x y z x' y' z' -> key rev (T F x y z) <= key rev (F x' y' z')).
Context (T_at : forall F x y z, typedf t s F -> inside s x y z -> exists x' y' z', inside s x' y' z' /\ nbr x y z x' y' z' /\ T F x y z = F x' y' z').
Context (se : strelt) (marker mask : img).
Context (Em : marker = mk_img s m) (Ek : mask = mk_img s M).
Context (Hnbr : forall x y z x' y' z', inside s x y z -> inside s x' y' z' -> (nbr x y z x' y' z' <-> sees se x y z x' y' z')).

Lemma G_flows n x y z : inside s x y z -> flows_in lim se marker mask n x y z (G n x y z).
Proof.
  revert x y z. induction n as [|n IH]; intros x y z Hi; [rewrite G_0|rewrite G_S].
  - apply fi_start; [rewrite Em|rewrite Ek]; apply mk_img_is; auto.
  - destruct (T_at (G n) x y z (G_typed n) Hi) as (x' & y' & z' & Hi' & Hn & ->). eapply fi_step; [apply IH; exact Hi'| |].
    + apply Hnbr; eauto.
    + rewrite Ek. apply mk_img_is; auto.
Qed.

Lemma G_best n x y z v : flows_in lim se marker mask n x y z v -> inside s x y z -> key rev (G n x y z) <= key rev v.
Proof.
  intros H. induction H as [n x y z a b Ha Hb|n x y z x' y' z' v b Hf IH Hse Hb]; intros Hi.
  - rewrite Em in Ha. rewrite Ek in Hb. apply mk_img_is in Ha as (_ & ->); [|exact Hw]. apply mk_img_is in Hb as (_ & ->); [|exact Hw]. apply (G_first n). exact Hi.
  - assert (inside s x' y' z') as Hi'. { destruct Hf as [? ? ? ? ? ? _ [Q _]|? ? ? ? ? ? ? ? ? _ _ [Q _]]; rewrite Ek in Q; exact Q. }
    specialize (IH Hi'). pose proof Hb as Hb0. rewrite Ek in Hb. apply mk_img_is in Hb as (_ & ->); [|exact Hw]. rewrite G_S, !Hlim.
    apply Z.max_le_compat_r. eapply Z.le_trans; [|exact IH]. apply T_le; [apply G_typed|exact Hi|exact Hi'|]. apply Hnbr; assumption.
Qed.

Lemma G_limit n x y z v : (forall x y z, inside s x y z -> G (S n) x y z = G n x y z) -> flows lim se marker mask x y z v -> inside s x y z -> key rev (G n x y z) <= key rev v.
Proof.
  intros HF H. induction H as [x y z a b Ha Hb|x y z x' y' z' v b Hf IH Hse Hb]; intros Hi.
  - rewrite Em in Ha. rewrite Ek in Hb. apply mk_img_is in Ha as (_ & ->); [|exact Hw]. apply mk_img_is in Hb as (_ & ->); [|exact Hw]. apply (G_first n). exact Hi.
  - assert (inside s x' y' z') as Hi' by (apply flows_inside in Hf; rewrite Ek in Hf; exact Hf).
    specialize (IH Hi'). rewrite Ek in Hb. apply mk_img_is in Hb as (_ & ->); [|exact Hw]. rewrite <- HF by exact Hi. rewrite G_S, !Hlim.
    apply Z.max_le_compat_r. eapply Z.le_trans; [|exact IH]. apply T_le; [apply G_typed|exact Hi|exact Hi'|]. apply Hnbr; assumption.
Qed.
End Iter.

Lemma flows_in_flows lim se marker mask n x y z v : flows_in lim se marker mask n x y z v -> flows lim se marker mask x y z v.
Proof. intros H. induction H; [constructor; assumption|eapply flow_step; eassumption]. Qed.
