From Verif Require Export Proofs.MorphPasses3.

(** Every pass computes the supremum (for the order given by [Rel]) of the values read for the points of its element. *)
Section Single.
Variables (op : Z -> Z -> Z) (Rel : Z -> Z -> Prop) (bv : Z) (s : dims).
Hypothesis op_lub : forall a b c, Rel (op a b) c <-> Rel a c /\ Rel b c.
Hypothesis Rel_eq : forall a b, (forall c, Rel a c <-> Rel b c) -> a = b.
Hypothesis Hw : wf_dims s.
Hypothesis H0 : 0 < dw s < 2 ^ 63.

Definition lub_of (P : point -> Prop) (V : point -> Z) (r : Z) : Prop := forall c, Rel r c <-> forall p, P p -> Rel (V p) c.

Lemma lub_list (l : list point) (V : point -> Z) r P : (forall p, P p <-> In p l) ->
  (forall c, Rel r c <-> fold_right (fun p A => Rel (V p) c /\ A) True l) -> lub_of P V r.
Proof.
  intros HP H c. rewrite H. clear H. transitivity (forall p, In p l -> Rel (V p) c).
  2: { split; intros H p Hp; apply H; apply HP; exact Hp. }
  clear HP. induction l as [|p l IH]; cbn; [split; [intros _ ? []|auto]|]. rewrite IH. split.
  - intros (A & B) q [<-|Hq]; auto.
  - intros H. split; auto.
Qed.

Lemma fold_lub V p0 pts : lub_of (fun p => In p (p0 :: pts)) V (fold_left (fun acc p => op acc (V p)) pts (V p0)).
Proof using op_lub.
  clear Hw H0.
  intros c. assert (forall a, Rel (fold_left (fun acc p => op acc (V p)) pts a) c <-> Rel a c /\ forall p, In p pts -> Rel (V p) c) as H.
  { induction pts as [|p pts IH]; intros a; cbn.
    - split; [intros H; split; [exact H|intros ? []]|tauto].
    - rewrite IH, op_lub. split.
      + intros ((A & B) & C). split; [exact A|]. intros q [<-|Hq]; auto.
      + intros (A & B). split; [split|]; auto. }
  rewrite H. split.
  - intros (A & B) q [<-|Hq]; auto.
  - intros B. split; [apply B; cbn; auto|]. intros q Hq. apply B. cbn. auto.
Qed.

Lemma gval_flat F a b e x y z : gval bv s false F (a, b, e) x y z = bo s bv F (x - a) (y - b) (z - e).
Proof. unfold gval, src_x, px_, py_, pz_. cbn [fst snd andb]. rewrite Z.sub_0_r. reflexivity. Qed.

Lemma bo_op F G x y z c : Rel (bo s bv (fun x y z => op (F x y z) (G x y z)) x y z) c <-> Rel (bo s bv F x y z) c /\ Rel (bo s bv G x y z) c.
Proof. clear Hw H0. unfold bo. destruct (insideb s x y z); [apply op_lub|tauto]. Qed.

(** A neighbour of a voxel outside the image in another direction is outside too. *)
Lemma bo_bo_y F x y z y' c : 0 <= y < dh s -> (Rel (bo s bv (fun x _ z => bo s bv F x y' z) x y z) c <-> Rel (bo s bv F x y' z) c).
Proof.
  intros Hy. unfold bo. destruct (insideb s x y z) eqn:E; [tauto|]. destruct (insideb s x y' z) eqn:E'; [|tauto]. unfold insideb in *. lia.
Qed.

Lemma bo_vres F x y z c : 0 <= y < dh s ->
  (Rel (bo s bv (vres op bv s F) x y z) c <-> Rel (bo s bv F x (y - 1) z) c /\ Rel (bo s bv F x y z) c /\ Rel (bo s bv F x (y + 1) z) c).
Proof.
  intros Hy. unfold bo at 1. destruct (insideb s x y z) eqn:E.
  - unfold vres. rewrite !op_lub. tauto.
  - rewrite !(bo_out s bv F) by (unfold inside; unfold insideb in E; lia). tauto.
Qed.

Definition hv (F : Z -> Z -> Z -> Z) : Z -> Z -> Z -> Z :=
  fun x y z => op (bo s bv (vres op bv s F) (x + 1) y z) (op (bo s bv (vres op bv s F) (x - 1) y z) (vres op bv s F x y z)).

Lemma hv_lub F x y z c : 0 <= x < dw s -> 0 <= y < dh s -> 0 <= z < dd s ->
  (Rel (hv F x y z) c <-> forall i j, -1 <= i <= 1 -> -1 <= j <= 1 -> Rel (bo s bv F (x + i) (y + j) z) c).
Proof.
  intros Hx Hy Hz. unfold hv. rewrite !op_lub.
  rewrite <- (bo_in s bv (vres op bv s F) x y z) by (unfold inside; auto). rewrite !bo_vres by exact Hy. split.
  - intros H i j Hi Hj. assert (i = -1 \/ i = 0 \/ i = 1) as Ci by lia. assert (j = -1 \/ j = 0 \/ j = 1) as Cj by lia.
    destruct Ci as [->|[->| ->]], Cj as [->|[->| ->]]; rewrite ?Z.add_0_r; tauto.
  - intros H.
    pose proof (H (-1) (-1)); pose proof (H (-1) 0); pose proof (H (-1) 1); pose proof (H 0 (-1)); pose proof (H 0 0);
    pose proof (H 0 1); pose proof (H 1 (-1)); pose proof (H 1 0); pose proof (H 1 1). rewrite ?Z.add_0_r in *.
    repeat split; match goal with K : _ -> _ -> ?g |- ?g => apply K; lia end.
Qed.

Lemma bo_hv F x y z c : 0 <= x < dw s -> 0 <= y < dh s ->
  (Rel (bo s bv (hv F) x y z) c <-> forall i j, -1 <= i <= 1 -> -1 <= j <= 1 -> Rel (bo s bv F (x + i) (y + j) z) c).
Proof.
  intros Hx Hy. unfold bo at 1. destruct (insideb s x y z) eqn:E.
  - apply insideb_spec in E. apply hv_lub; apply E.
  - assert (~ 0 <= z < dd s) as Nz by (unfold insideb in E; lia). split.
    + intros H i j _ _. rewrite bo_out by (unfold inside; lia). exact H.
    + intros H. specialize (H 0 0 ltac:(lia) ltac:(lia)). rewrite bo_out in H by (unfold inside; lia). exact H.
Qed.

Lemma horiz_lub F x y z : inside s x y z ->
  lub_of (fun p => In p (se_points (HorizSE 1))) (fun p => gval bv s false F p x y z)
    (op (bo s bv F (x + 1) y z) (op (bo s bv F (x - 1) y z) (F x y z))).
Proof.
  intros Hi. match goal with |- lub_of (fun p => In p ?l0) _ _ => let l := eval vm_compute in l0 in apply (lub_list l); [reflexivity|] end. intros c. cbn [fold_right]. rewrite !gval_flat, !Z.sub_0_r, !op_lub.
  rewrite <- (bo_in s bv F x y z) by exact Hi. change (x - -1) with (x + 1). tauto.
Qed.

Lemma vert_lub F x y z : inside s x y z ->
  lub_of (fun p => In p (se_points (VertSE 1))) (fun p => gval bv s false F p x y z) (vres op bv s F x y z).
Proof.
  intros Hi. match goal with |- lub_of (fun p => In p ?l0) _ _ => let l := eval vm_compute in l0 in apply (lub_list l); [reflexivity|] end. intros c. cbn [fold_right]. unfold vres. rewrite !gval_flat, !Z.sub_0_r, !op_lub.
  change (y - -1) with (y + 1). tauto.
Qed.

Lemma cross_lub F x y z : inside s x y z ->
  lub_of (fun p => In p (se_points (CrossSE 1))) (fun p => gval bv s false F p x y z) (cres op bv s F x y z).
Proof.
  intros Hi. match goal with |- lub_of (fun p => In p ?l0) _ _ => let l := eval vm_compute in l0 in apply (lub_list l); [reflexivity|] end. intros c. cbn [fold_right]. unfold cres, hfull. rewrite !gval_flat, !Z.sub_0_r, !op_lub.
  rewrite <- (bo_in s bv F x y z) by exact Hi. change (y - -1) with (y + 1). change (x - -1) with (x + 1). tauto.
Qed.

Lemma squ_lub F x y z : inside s x y z ->
  lub_of (fun p => In p (se_points (SquSE 1))) (fun p => gval bv s false F p x y z) (hv F x y z).
Proof.
  intros (Hx & Hy & Hz) c. rewrite hv_lub by assumption. split.
  - intros H [[a b] e] Hp. rewrite gval_flat. vm_compute in Hp. replace (x - a) with (x + - a) by lia. replace (y - b) with (y + - b) by lia.
    assert (e = 0 /\ -1 <= a <= 1 /\ -1 <= b <= 1) as (-> & Ha & Hb).
    { repeat (destruct Hp as [Hp|Hp]; [injection Hp; lia|]). destruct Hp. }
    rewrite Z.sub_0_r. apply H; lia.
  - intros H i j Hi Hj. specialize (H (- i, - j, 0)). cbv beta in H. rewrite gval_flat, Z.sub_0_r in H. replace (x - - i) with (x + i) in H by lia. replace (y - - j) with (y + j) in H by lia.
    apply H. assert (i = -1 \/ i = 0 \/ i = 1) as Ci by lia. assert (j = -1 \/ j = 0 \/ j = 1) as Cj by lia.
    destruct Ci as [->|[->| ->]], Cj as [->|[->| ->]]; vm_compute; tauto.
Qed.

Lemma cube_lub F x y z : inside s x y z ->
  lub_of (fun p => In p (se_points (CubeSE 1))) (fun p => gval bv s false F p x y z) (dres op bv s (hv F) x y z).
Proof.
  intros (Hx & Hy & Hz) c. unfold dres. rewrite !op_lub. rewrite !bo_hv by assumption. split.
  - intros H [[a b] e] Hp. rewrite gval_flat. vm_compute in Hp. replace (x - a) with (x + - a) by lia. replace (y - b) with (y + - b) by lia.
    assert (-1 <= e <= 1 /\ -1 <= a <= 1 /\ -1 <= b <= 1) as (He & Ha & Hb).
    { repeat (destruct Hp as [Hp|Hp]; [injection Hp; lia|]). destruct Hp. }
    assert (e = -1 \/ e = 0 \/ e = 1) as Ce by lia. destruct H as ((H1 & H2) & (H3 & _)).
    destruct Ce as [->|[->| ->]]; [change (z - -1) with (z + 1); apply H3|rewrite Z.sub_0_r; apply H2|apply H1]; lia.
  - intros H. assert (forall e, -1 <= e <= 1 -> forall i j, -1 <= i <= 1 -> -1 <= j <= 1 -> Rel (bo s bv F (x + i) (y + j) (z - e)) c) as K.
    { intros e He i j Hi Hj. specialize (H (- i, - j, e)). cbv beta in H. rewrite gval_flat in H.
      replace (x - - i) with (x + i) in H by lia. replace (y - - j) with (y + j) in H by lia.
      apply H. assert (i = -1 \/ i = 0 \/ i = 1) as Ci by lia. assert (j = -1 \/ j = 0 \/ j = 1) as Cj by lia. assert (e = -1 \/ e = 0 \/ e = 1) as Ce by lia.
      destruct Ci as [->|[->| ->]], Cj as [->|[->| ->]], Ce as [->|[->| ->]]; vm_compute; tauto. }
    repeat split; intros i j Hi Hj; [apply (K 1)|specialize (K 0 ltac:(lia) i j); rewrite Z.sub_0_r in K; apply K|
      apply (K (-1))|specialize (K 0 ltac:(lia) i j); rewrite Z.sub_0_r in K; apply K]; lia.
Qed.

Lemma hex_lub F x y : inside s x y 0 ->
  lub_of (fun p => In p (se_points (HexSE 1))) (fun p => gval bv s true F p x y 0) (hres op bv s F x y 0).
Proof.
  intros Hi. pose proof Hi as (Hx & Hy & Hz). match goal with |- lub_of (fun p => In p ?l0) _ _ => let l := eval vm_compute in l0 in apply (lub_list l); [reflexivity|] end. intros c. cbn [fold_right].
  unfold hres, hfull, hhalf. rewrite !op_lub.
  unfold gval, src_x, px_, py_, pz_. cbn [fst snd andb]. rewrite !Z.sub_0_r. change (y - -1) with (y + 1). change (Z.even 0) with true.
  rewrite Z.even_add, Z.even_sub, <- !Z.negb_even, Z.even_add, Z.even_sub. change (Z.even 1) with false.
  rewrite <- (bo_in s bv F x y 0) by exact Hi.
  assert (forall y', 0 <= y' < dh s -> F x y' 0 = bo s bv F x y' 0) as Hin.
  { intros y' Hy'. symmetry. apply bo_in. split; [exact Hx|]. split; [exact Hy'|exact Hz]. }
  assert (forall x' y', ~ 0 <= y' < dh s -> bo s bv F x' y' 0 = bv) as Hout.
  { intros x' y' Hy'. apply bo_out. unfold inside. tauto. }
  change (x - -1) with (x + 1).
  destruct ((0 <=? y - 1) && (y - 1 <? dh s)) eqn:E1, ((0 <=? y + 1) && (y + 1 <? dh s)) eqn:E2;
  rewrite ?op_lub; repeat match goal with |- context [F x ?y' 0] => rewrite (Hin y') by lia end;
  repeat match goal with |- context [bo s bv F ?x' ?y' 0] => rewrite (Hout x' y') by lia end;
  destruct (Z.even y); cbn [negb eqb andb]; rewrite ?Z.sub_0_r; replace (x + 1 - 1) with x by lia; tauto.
Qed.

Lemma lub_same (P Q : point -> Prop) V r : (forall p, P p <-> Q p) -> lub_of P V r -> lub_of Q V r.
Proof. intros H HL c. rewrite (HL c). split; intros K p Hp; apply K; apply H; exact Hp. Qed.

Lemma lub_fun P V r r' : lub_of P V r -> lub_of P V r' -> r = r'.
Proof. intros H H'. apply Rel_eq. intros c. rewrite (H c), (H' c). reflexivity. Qed.

Theorem exec_single_ok c se alias F G : legal_conf (dh s) c -> typed_se se -> fits se s -> 0 < dd s -> (alias = true -> G = F) ->
  exists R, exec_single c op bv se alias (mk_img s F) (mk_img s G) = Some (mk_img s R) /\
    forall x y z, inside s x y z -> lub_of (fun p => In p (se_points se)) (fun p => gval bv s (se_odd se) F p x y z) (R x y z).
Proof.
  intros HL HT HF Hd HA. unfold typed_se in HT. unfold fits in HF. unfold exec_single.
  assert (perm_sched (lineSched c)) as HS by apply HL. assert (perm_sched (ySched c)) as HY by apply HL.
  assert (se_points se <> [] -> (forall p, In p (se_points se) -> - dw s <= px_ p /\ px_ p + bit (se_odd se) <= dw s) ->
    exists R, exec_generic c op bv se (mk_img s F) (mk_img s G) = Some (mk_img s R) /\
    forall x y z, inside s x y z -> lub_of (fun p => In p (se_points se)) (fun p => gval bv s (se_odd se) F p x y z) (R x y z)) as HG.
  { intros HN HP. destruct (se_points se) as [|p0 pts] eqn:Ep; [congruence|]. eexists. split.
    - apply (generic_ok op bv s Hw H0 c se F G p0 pts Ep HS). intros p Hp. apply HP. rewrite Ep in Hp. exact Hp.
    - intros x y z _. apply (fold_lub (fun p => gval bv s (se_odd se) F p x y z)). }
  destruct (se_type se); try (apply HG; assumption).
  - destruct HT as (Ho & Hp), HF as (Hh & Hd1). eexists. split; [apply (hex_ok op Rel); assumption|].
    intros x y z Hi. assert (z = 0) as -> by (destruct Hi as (_ & _ & Hz); lia). rewrite Ho. eapply lub_same; [|apply hex_lub; exact Hi]. intros p. symmetry. apply Hp.
  - destruct HT as (Ho & Hp). unfold exec_square. rewrite (vertical_ok op Rel bv s op_lub Rel_eq Hw H0) by assumption. cbn [option_bind].
    rewrite horizontal_ok by auto. eexists. split; [reflexivity|]. intros x y z Hi. rewrite Ho. eapply lub_same; [|apply (squ_lub F); exact Hi]. intros p. symmetry. apply Hp.
  - destruct HT as (Ho & Hp). eexists. split; [apply (cross_ok op Rel); assumption|].
    intros x y z Hi. rewrite Ho. eapply lub_same; [|apply cross_lub; exact Hi]. intros p. symmetry. apply Hp.
  - destruct HT as (Ho & Hp). eexists. split; [apply horizontal_ok; assumption|].
    intros x y z Hi. rewrite Ho. eapply lub_same; [|apply horiz_lub; exact Hi]. intros p. symmetry. apply Hp.
  - destruct HT as (Ho & Hp). eexists. split; [apply (vertical_ok op Rel); assumption|].
    intros x y z Hi. rewrite Ho. eapply lub_same; [|apply vert_lub; exact Hi]. intros p. symmetry. apply Hp.
  - destruct HT as (Ho & Hp). unfold exec_cube. rewrite (vertical_ok op Rel bv s op_lub Rel_eq Hw H0) by assumption. cbn [option_bind].
    rewrite horizontal_ok by auto. cbn [option_bind]. rewrite (depth_ok op Rel bv s) by auto.
    eexists. split; [reflexivity|]. intros x y z Hi. rewrite Ho. eapply lub_same; [|apply (cube_lub F); exact Hi]. intros p. symmetry. apply Hp.
  - destruct HT.
Qed.
End Single.
