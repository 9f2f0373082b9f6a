From Verif Require Export Proofs.MorphIter Proofs.StrEltProofs.

(** ** From functions to images *)
Lemma lub_le_greatest (l : list point) V r : lub_of Z.le (fun p => In p l) V r -> (exists p, In p l /\ V p = r) /\ forall p, In p l -> V p <= r.
Proof.
  intros H. assert (forall p, In p l -> V p <= r) as HU by (apply H; lia). split; [|exact HU].
  destruct (Exists_dec (fun p => V p = r) l (fun p => Z.eq_dec (V p) r)) as [E|E]; [apply Exists_exists; exact E|].
  exfalso. assert (r <= r - 1); [|lia]. apply H. intros p Hp. specialize (HU p Hp).
  assert (V p <> r); [|lia]. intros EV. apply E. apply Exists_exists. eauto.
Qed.

Lemma lub_ge_least (l : list point) V r : lub_of Z.ge (fun p => In p l) V r -> (exists p, In p l /\ V p = r) /\ forall p, In p l -> r <= V p.
Proof.
  intros H. assert (forall p, In p l -> V p >= r) as HU by (apply H; lia). split; [|intros p Hp; specialize (HU p Hp); lia].
  destruct (Exists_dec (fun p => V p = r) l (fun p => Z.eq_dec (V p) r)) as [E|E]; [apply Exists_exists; exact E|].
  exfalso. assert (r >= r + 1); [|lia]. apply H. intros p Hp. specialize (HU p Hp).
  assert (V p <> r); [|lia]. intros EV. apply E. apply Exists_exists. eauto.
Qed.

Lemma planar_z se s z : planar se s -> 0 <= z < dd s -> se_odd se = true -> Z.even z = true /\ forall p, In p (se_points se) -> pz_ p = 0.
Proof. intros H Hz E. destruct (H E) as (Ed & HP). split; [|exact HP]. replace z with 0 by lia. reflexivity. Qed.

Lemma pass1_dilated s bv se F R : wf_dims s -> pass1 Z.le bv s se F R -> dilated se bv (mk_img s F) (mk_img s R).
Proof.
  intros Hw H. split; [reflexivity|]. split; [apply mk_img_wf; exact Hw|]. intros x y z v Hv. apply mk_img_is in Hv as (Hi & ->); [|exact Hw].
  destruct (lub_le_greatest _ _ _ (H x y z Hi)) as ((p & Hp & E) & HU). split.
  - exists (src_x (se_odd se) x y z p), (y - py_ p), (z - pz_ p). split; [exists p; repeat split; auto|]. apply bo_reads; [exact Hw|]. symmetry. exact E.
  - intros u (x' & y' & z' & (q & Hq & -> & -> & ->) & Hr). apply bo_reads in Hr; [|exact Hw]. subst u. apply HU. exact Hq.
Qed.

Lemma pass1_eroded s bv se F R : wf_dims s -> planar se s -> pass1 Z.ge bv s (transpose se) F R -> eroded se bv (mk_img s F) (mk_img s R).
Proof.
  intros Hw HP H. split; [reflexivity|]. split; [apply mk_img_wf; exact Hw|]. intros x y z v Hv. apply mk_img_is in Hv as (Hi & ->); [|exact Hw].
  pose proof (fun x' y' z' => sees_transpose se x y z x' y' z' (planar_z se s z HP (proj2 (proj2 Hi)))) as HT.
  destruct (lub_ge_least _ _ _ (H x y z Hi)) as ((p & Hp & E) & HU). split.
  - exists (src_x (se_odd se) x y z p), (y - py_ p), (z - pz_ p). split; [apply HT; exists p; repeat split; auto|]. apply bo_reads; [exact Hw|]. symmetry. exact E.
  - intros u (x' & y' & z' & Hs & Hr). apply HT in Hs as (q & Hq & -> & -> & ->). apply bo_reads in Hr; [|exact Hw]. subst u. apply HU. exact Hq.
Qed.

Lemma passn_passes (T : img -> img -> Prop) Rel bv s n se F R :
  (forall F R, pass1 Rel bv s se F R -> T (mk_img s F) (mk_img s R)) -> passn Rel bv s n se F R -> passes n T (mk_img s F) (mk_img s R).
Proof.
  intros HT. revert R. induction n as [|n IH]; intros R H.
  - cbn. apply mk_img_ext. exact H.
  - destruct H as (M & H1 & H2). exists (mk_img s M). split; [apply IH; exact H1|apply HT; exact H2].
Qed.

Lemma same_size_true a b : sz a = sz b -> same_size a b = true.
Proof. intros E. unfold same_size. unfold width, height, depth. rewrite E, !Z.eqb_refl. reflexivity. Qed.

(** ** The operators *)
Section Ops.
Variables (junk : Z -> Z) (cs : nat -> conf) (bv : Z) (se : strelt) (alias : bool) (im out : img).
Hypothesis Him : good_img im.
Hypothesis Hout : wf_img out.
Hypothesis Hsz : sz out = sz im.
Hypothesis HA : alias = true -> out = im.
Hypothesis HL : forall k, legal_conf (dh (sz im)) (cs k).
Hypothesis HT : typed_se se.
Hypothesis Hn : 0 <= se_size se.

Lemma good_parts : wf_dims (sz im) /\ 0 < dw (sz im) < 2 ^ 63 /\ 0 < dd (sz im).
Proof. destruct Him as ((W & _) & (A & B & C) & D). split; [exact W|]. split; [split; assumption|exact C]. Qed.

Lemma dilate_fun : fits se (sz im) ->
  exists R, dilate junk cs bv se alias im out = Some (1, mk_img (sz im) R) /\ passn Z.le bv (sz im) (Z.to_nat (se_size se)) se (pxv im) R.
Proof.
  intros HF. destruct good_parts as (W & W0 & Wd). unfold dilate. rewrite same_size_true by congruence. cbn [negb].
  assert (exists G, out = mk_img (sz im) G /\ (alias = true -> G = pxv im)) as (G & EG & HG).
  { exists (pxv out). split; [rewrite <- Hsz; apply img_mk; exact Hout|]. intros E. rewrite (HA E). reflexivity. }
  rewrite EG.
  destruct (morph_exec_ok px_sup Z.le bv (sz im) sup_lub le_eq W W0 Wd cs HL se HT HF junk alias (pxv im) G Hn HG) as (R & E & HR).
  rewrite <- (img_mk im (proj1 Him)) in E. rewrite E. cbn [option_bind]. exists R. auto.
Qed.

Lemma erode_fun : fits (transpose se) (sz im) ->
  exists R, erode junk cs bv se alias im out = Some (1, mk_img (sz im) R) /\ passn Z.ge bv (sz im) (Z.to_nat (se_size se)) (transpose se) (pxv im) R.
Proof.
  intros HF. destruct good_parts as (W & W0 & Wd). unfold erode. rewrite same_size_true by congruence. cbn [negb].
  assert (exists G, out = mk_img (sz im) G /\ (alias = true -> G = pxv im)) as (G & EG & HG).
  { exists (pxv out). split; [rewrite <- Hsz; apply img_mk; exact Hout|]. intros E. rewrite (HA E). reflexivity. }
  rewrite EG.
  destruct (morph_exec_ok px_inf Z.ge bv (sz im) inf_lub ge_eq W W0 Wd cs HL (transpose se) (transpose_typed se HT) HF junk alias (pxv im) G Hn HG) as (R & E & HR).
  rewrite <- (img_mk im (proj1 Him)) in E. rewrite E. cbn [option_bind]. exists R. auto.
Qed.

Lemma dilate_ok : fits se (sz im) ->
  exists D, dilate junk cs bv se alias im out = Some (1, D) /\ passes (Z.to_nat (se_size se)) (dilated se bv) im D.
Proof.
  intros HF. destruct (dilate_fun HF) as (R & E & HR). eexists. split; [exact E|]. match goal with |- passes _ _ _ ?r => pattern im at 1; rewrite (img_mk im (proj1 Him)) end.
  apply (passn_passes _ Z.le bv (sz im) _ se); [|exact HR]. intros. apply pass1_dilated; [apply good_parts|assumption].
Qed.

Lemma erode_ok : fits (transpose se) (sz im) -> planar se (sz im) ->
  exists E, erode junk cs bv se alias im out = Some (1, E) /\ passes (Z.to_nat (se_size se)) (eroded se bv) im E.
Proof.
  intros HF HP. destruct (erode_fun HF) as (R & E & HR). eexists. split; [exact E|]. match goal with |- passes _ _ _ ?r => pattern im at 1; rewrite (img_mk im (proj1 Him)) end.
  apply (passn_passes _ Z.ge bv (sz im) _ (transpose se)); [|exact HR]. intros. apply pass1_eroded; [apply good_parts|assumption|assumption].
Qed.
End Ops.

(** The specification determines the result. *)
Lemma dilated_fun se bv im D D' : wf_img im -> dilated se bv im D -> dilated se bv im D' -> D = D'.
Proof.
  intros Hw (S & W & H) (S' & W' & H'). apply img_ext; [exact W|exact W'|congruence|]. intros x y z v Hv.
  destruct (pixel_exists D' x y z W') as (v' & Hv'); [rewrite S', <- S; apply Hv|].
  destruct (H _ _ _ _ Hv) as (A & B), (H' _ _ _ _ Hv') as (A' & B'). pose proof (B _ A'). pose proof (B' _ A). assert (v = v') by lia. subst. exact Hv'.
Qed.
Lemma eroded_fun se bv im D D' : wf_img im -> eroded se bv im D -> eroded se bv im D' -> D = D'.
Proof.
  intros Hw (S & W & H) (S' & W' & H'). apply img_ext; [exact W|exact W'|congruence|]. intros x y z v Hv.
  destruct (pixel_exists D' x y z W') as (v' & Hv'); [rewrite S', <- S; apply Hv|].
  destruct (H _ _ _ _ Hv) as (A & B), (H' _ _ _ _ Hv') as (A' & B'). pose proof (B _ A'). pose proof (B' _ A). assert (v = v') by lia. subst. exact Hv'.
Qed.
Lemma passes_fun (T : img -> img -> Prop) n im D D' : (forall a b c, wf_img a -> T a b -> T a c -> b = c) -> (forall a b, T a b -> wf_img b) -> wf_img im ->
  passes n T im D -> passes n T im D' -> D = D'.
Proof.
  intros HT HW Him. revert D D'. induction n as [|n IH]; intros D D' H H'; [cbn in *; congruence|].
  destruct H as (M & H1 & H2), H' as (M' & H1' & H2'). rewrite (IH _ _ H1 H1') in H2. apply (HT M'); auto.
  destruct n; [cbn in H1'; subst; exact Him|]. destruct H1' as (? & _ & K). eapply HW. exact K.
Qed.
