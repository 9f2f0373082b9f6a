From Verif Require Export Proofs.MorphPasses2.

(** A loop over the columns of slices in which iteration [y] touches, in the output image, the lines [y] only. *)
Lemma col_pass s body order F0 (Rf : Z -> Z -> Z -> Z) : Permutation order (zseq (dh s)) ->
  (forall F y, 0 <= y < dh s -> (forall x z, F x y z = F0 x y z) ->
     body (pixs (mk_img s F)) y = Some (pixs (mk_img s (fun x y' z => if y' =? y then Rf x y' z else F x y' z)))) ->
  fold_opt body order (pixs (mk_img s F0)) = Some (pixs (mk_img s Rf)).
Proof.
  intros HP HB. assert (NoDup order) as HN by (apply (Permutation_NoDup (Permutation_sym HP)); apply zseq_NoDup).
  destruct (fold_opt_inv (fun done px => exists F, px = pixs (mk_img s F) /\
     (forall x y z, In y done -> F x y z = Rf x y z) /\ (forall x y z, ~ In y done -> F x y z = F0 x y z)) body order
     (pixs (mk_img s F0))) as (px & E & F & -> & H1 & H2).
  - exists F0. split; [reflexivity|]. split; [intros ? ? ? []|auto].
  - intros done y todo px El (F & -> & H1 & H2).
    assert (In y (zseq (dh s))) as Hy by (apply (Permutation_in _ HP); rewrite El; apply in_elt). apply zseq_In in Hy.
    assert (~ In y done) as Hnd.
    { rewrite El in HN. apply NoDup_remove_2 in HN. intros H. apply HN. apply in_app_iff. auto. }
    rewrite HB; auto. eexists. split; [reflexivity|]. eexists. split; [reflexivity|]. split.
    + intros x y' z Hd. destruct (Z.eqb_spec y' y) as [->|N]; [reflexivity|]. apply H1.
      apply in_app_iff in Hd as [Hd|[Hd|[]]]; [exact Hd|congruence].
    + intros x y' z Hd. rewrite in_app_iff in Hd. destruct (Z.eqb_spec y' y) as [->|N]; [exfalso; apply Hd; cbn; auto|]. apply H2. tauto.
  - rewrite E. f_equal. f_equal. apply mk_img_ext. intros x y z (Hx & Hy & Hz). apply H1.
    apply (Permutation_in _ (Permutation_sym HP)). apply zseq_In. exact Hy.
Qed.

Section Passes.
Variables (op : Z -> Z -> Z) (Rel : Z -> Z -> Prop) (bv : Z) (s : dims).
Hypothesis op_lub : forall a b c, Rel (op a b) c <-> Rel a c /\ Rel b c.
Hypothesis Rel_eq : forall a b, (forall c, Rel a c <-> Rel b c) -> a = b.
Hypothesis Hw : wf_dims s.
Hypothesis H0 : 0 < dw s < 2 ^ 63.

Ltac aci := apply Rel_eq; intros ?; rewrite ?op_lub; tauto.

Lemma shl_bo F y k dx : 0 <= y < dh s -> 0 <= k < dd s -> - dw s <= dx <= dw s ->
  shl (ln (dw s) (fun x => F x y k)) dx bv = Some (ln (dw s) (fun x => bo s bv F (x - dx) y k)).
Proof.
  intros Hy Hk Hdx. rewrite shl_ln by lia. f_equal. apply ln_ext. intros x Hx. unfold bo, insideb.
  repeat match goal with |- context [if ?c then _ else _] => destruct c eqn:? end; try reflexivity; lia.
Qed.

Section Cross.
Variables (c : conf) (alias : bool) (F : Z -> Z -> Z -> Z).
Hypothesis Hh : 2 <= dh s.
Let first := block_first c (dh s).
Let size := block_size c (dh s).

Definition hfull (x y z : Z) : Z := op (op (F x y z) (bo s bv F (x - 1) y z)) (bo s bv F (x + 1) y z).
Definition cres (x y z : Z) : Z := op (hfull x y z) (op (bo s bv F x (y - 1) z) (bo s bv F x (y + 1) z)).

Lemma two_ways y k : 0 <= y < dh s -> 0 <= k < dd s ->
  shifted_line_2ways op bv (ln (dw s) (fun x => F x y k)) 1 = Some (ln (dw s) (fun x => hfull x y k)).
Proof.
  intros Hy Hk. unfold shifted_line_2ways. rewrite !shl_bo by lia. cbn [option_bind]. rewrite !lineFn_ln.
  reflexivity.
Qed.

Lemma cross_init_ok k G t : 0 <= k < dd s -> 0 <= t < block_threads c (dh s) -> (alias = true -> forall x y, G x y k = F x y k) ->
  cross_init c op bv (mk_img s F) (src_of alias (mk_img s F) (pixs (mk_img s G))) k t =
  Some ((ln (dw s) (fun x => F x (first t) k), ln (dw s) (fun x => F x (first t + 1) k)), ln (dw s) (fun x => cres x (first t) k)).
Proof.
  intros Hk Ht HA. destruct (block_range s c Hh t Ht) as (B1 & B2 & B3). fold first in B1, B3. fold size in B2, B3.
  unfold cross_init. unfold height, width. cbn [sz mk_img]. fold (first t).
  change (Img s (map _ (grid (dw s) (dh s) (dd s)))) with (mk_img s F).
  rewrite (getLine_src s alias F G (first t)) by (auto; lia). cbn [option_bind]. rewrite two_ways by lia. cbn [option_bind].
  rewrite (getLine_src s alias F G (first t + 1)) by (auto; lia). cbn [option_bind].
  assert ((if first t =? 0 then Some (borderBuf (dw s) bv) else getLine s (src_of alias (mk_img s F) (pixs (mk_img s G))) (first t - 1) k)
     = Some (ln (dw s) (fun x => bo s bv F x (first t - 1) k))) as ->.
  { destruct (Z.eqb_spec (first t) 0) as [E|N].
    - rewrite borderBuf_ln. f_equal. apply ln_ext. intros x _. symmetry. apply bo_noline. lia.
    - rewrite (getLine_src s alias F G) by (auto; lia). f_equal. apply ln_ext. intros x Hx. symmetry. apply bo_line; lia. }
  cbn [option_bind]. rewrite !lineFn_ln. f_equal. f_equal. apply ln_ext. intros x Hx. unfold cres.
  rewrite (bo_line bv s F x (first t + 1)) by lia. aci.
Qed.

Definition c_at (k t i : Z) : cthread := CRun (i + 1) (ln (dw s) (fun x => F x (i - 1) k)) (ln (dw s) (fun x => F x i k)).

Lemma cross_step_mid k t i G : 0 <= k < dd s -> 0 <= t < block_threads c (dh s) -> first t + 1 <= i < first t + size t - 1 ->
  (alias = true -> forall x y, i <= y <= first t + size t -> 0 <= y < dh s -> G x y k = F x y k) ->
  cross_step c op bv alias (mk_img s F) s k t (c_at k t i) (pixs (mk_img s G)) =
  Some (c_at k t (i + 1), pixs (mk_img s (setl G i k (fun x => cres x i k)))).
Proof.
  intros Hk Ht Hi HA. destruct (block_range s c Hh t Ht) as (B1 & B2 & B3). fold first in B1, B3. fold size in B2, B3.
  unfold cross_step, c_at. unfold height, width. cbn [sz mk_img]. fold (first t) (size t).
  change (Img s (map _ (grid (dw s) (dh s) (dd s)))) with (mk_img s F).
  destruct (Z.ltb_spec (i + 1) (first t + size t)); [|lia].
  rewrite (getLine_src s alias F G (i + 1)) by (auto; try lia; intros Ea x; apply HA; (exact Ea || lia)).
  cbn [option_bind]. rewrite two_ways by lia. cbn [option_bind]. rewrite !lineFn_ln.
  replace (i + 1 - 1) with i by lia. rewrite putLine_mk by (assumption || lia). cbn [option_bind].
  f_equal. f_equal. f_equal. apply mk_img_ext. intros x y' z' (Hx & _).
  unfold setl. destruct (_ && _); [|reflexivity]. unfold cres.
  rewrite (bo_line bv s F x (i - 1)), (bo_line bv s F x (i + 1)) by lia. reflexivity.
Qed.

Lemma cross_step_end k t G : 0 <= k < dd s -> 0 <= t < block_threads c (dh s) ->
  (alias = true -> forall x y, first t + size t - 1 <= y <= first t + size t -> 0 <= y < dh s -> G x y k = F x y k) ->
  cross_step c op bv alias (mk_img s F) s k t (c_at k t (first t + size t - 1)) (pixs (mk_img s G)) =
  Some (CDone, pixs (mk_img s (setl G (first t + size t - 1) k (fun x => cres x (first t + size t - 1) k)))).
Proof.
  intros Hk Ht HA. destruct (block_range s c Hh t Ht) as (B1 & B2 & B3). fold first in B1, B3. fold size in B2, B3.
  unfold cross_step, c_at. unfold height, width. cbn [sz mk_img]. fold (first t) (size t).
  change (Img s (map _ (grid (dw s) (dh s) (dd s)))) with (mk_img s F).
  destruct (Z.ltb_spec (first t + size t - 1 + 1) (first t + size t)); [lia|].
  rewrite two_ways by lia. cbn [option_bind].
  assert ((if first t + size t =? dh s then Some (borderBuf (dw s) bv) else getLine s (src_of alias (mk_img s F) (pixs (mk_img s G))) (first t + size t) k)
     = Some (ln (dw s) (fun x => bo s bv F x (first t + size t) k))) as ->.
  { destruct (Z.eqb_spec (first t + size t) (dh s)) as [E|N].
    - rewrite borderBuf_ln. f_equal. apply ln_ext. intros x _. symmetry. apply bo_noline. lia.
    - rewrite (getLine_src s alias F G) by (auto; try lia; intros Ea x; apply HA; (exact Ea || lia)).
      f_equal. apply ln_ext. intros x Hx. symmetry. apply bo_line; lia. }
  cbn [option_bind]. rewrite !lineFn_ln. rewrite putLine_mk by (assumption || lia). cbn [option_bind].
  f_equal. f_equal. f_equal. apply mk_img_ext. intros x y' z' (Hx & _).
  unfold setl. destruct (_ && _); [|reflexivity]. unfold cres.
  rewrite (bo_line bv s F x (first t + size t - 1 - 1)) by lia.
  replace (first t + size t - 1 + 1) with (first t + size t) by lia. aci.
Qed.

Lemma cross_slice_ok k G : legal_conf (dh s) c -> 0 <= k < dd s -> (alias = true -> forall x y, G x y k = F x y k) ->
  cross_slice c op bv alias (mk_img s F) s (pixs (mk_img s G)) k =
  Some (pixs (mk_img s (fun x y z => if z =? k then cres x y z else G x y z))).
Proof.
  intros (_ & _ & _ & LL & M1 & M2) Hk HA. unfold cross_slice. unfold height. cbn [sz mk_img].
  change (Img s (map _ (grid (dw s) (dh s) (dd s)))) with (mk_img s F).
  change (map (fun '(x, y, z) => G x y z) (grid (dw s) (dh s) (dd s))) with (pixs (mk_img s G)).
  rewrite (all_opt_map _ (fun t => ((ln (dw s) (fun x => F x (first t) k), ln (dw s) (fun x => F x (first t + 1) k)), ln (dw s) (fun x => cres x (first t) k))))
    by (intros t Ht; apply cross_init_ok; [exact Hk|apply zseq_In; exact Ht|exact HA]).
  cbn [option_bind]. rewrite combine_map_r, !map_map.
  match goal with |- context [run_threads _ _ ?l _] =>
    replace l with (map (fun t => c_at k t (first t + 1)) (zseq (block_threads c (dh s)))) by
      (apply map_ext; intros t; unfold c_at; replace (first t + 1 - 1) with (first t) by lia;
       replace (first t + 1 + 1) with (first t + 2) by lia; reflexivity) end.
  destruct (run_threads_ok s c Hh cthread (cross_step c op bv alias (mk_img s F) s k) (c_at k) CDone alias k F cres) with (order := midSched c k) (F' := G)
    as (sts & G' & E & HO & HR).
  - exact Hk.
  - intros t i G' Ht Hi HG. apply cross_step_mid; assumption.
  - intros t G' Ht HG. apply cross_step_end; assumption.
  - reflexivity.
  - apply M1.
  - apply M2.
  - exact HA.
  - fold first in E. rewrite E. cbn [option_bind snd]. unfold first.
    rewrite (put_firsts_ok s c Hh k cres (lastSched c k (zseq (block_threads c (dh s)))) G' Hw H0 Hk).
    + f_equal. f_equal. apply mk_img_ext. intros x y z _. destruct (Z.eqb_spec z k) as [->|N]; [reflexivity|]. apply HO. exact N.
    + intros t. rewrite <- zseq_In. split; apply Permutation_in; [|apply Permutation_sym]; apply LL.
    + exact HR.
Qed.

Lemma cross_ok G : legal_conf (dh s) c -> (alias = true -> G = F) ->
  exec_cross c op bv alias (mk_img s F) (mk_img s G) = Some (mk_img s cres).
Proof.
  intros HL HA. unfold exec_cross. unfold depth. cbn [sz]. rewrite (slice_pass s _ G cres); [reflexivity|].
  intros G' z Hz HG. apply cross_slice_ok; auto. intros Ea x y. rewrite HG, HA by exact Ea. reflexivity.
Qed.
End Cross.

Section Depth.
Variables (c : conf) (alias : bool) (F : Z -> Z -> Z -> Z).
Hypothesis Hd : 0 < dd s.

Definition dres (x y z : Z) : Z :=
  op (op (bo s bv F x y (z - 1)) (bo s bv F x y z)) (op (bo s bv F x y (z + 1)) (bo s bv F x y z)).

Lemma depth_column_ok y G : 0 <= y < dh s -> (alias = true -> forall x z, G x y z = F x y z) ->
  depth_column op bv alias (mk_img s F) s (pixs (mk_img s G)) y =
  Some (pixs (mk_img s (fun x y' z => if y' =? y then dres x y' z else G x y' z))).
Proof.
  intros Hy HA. unfold depth_column. unfold width, depth. cbn [sz mk_img].
  change (Img s (map _ (grid (dw s) (dh s) (dd s)))) with (mk_img s F).
  change (map (fun '(x, y, z) => G x y z) (grid (dw s) (dh s) (dd s))) with (pixs (mk_img s G)).
  rewrite (getLine_src s alias F G y 0) by (auto; lia). cbn [option_bind]. rewrite borderBuf_ln, lineFn_ln.
  set (st := fun m : Z => (pixs (mk_img s (fun x y' z => if (y' =? y) && (z <? m) then dres x y' z else G x y' z)),
                 ln (dw s) (fun x => op (bo s bv F x y (m - 1)) (bo s bv F x y m)))).
  assert (forall m, 0 <= m <= dd s - 1 ->
    fold_opt (fun '(px, buf1) z =>
       option_bind (getLine s (src_of alias (mk_img s F) px) y z) (fun lz =>
       option_bind (getLine s (src_of alias (mk_img s F) px) y (z - 1)) (fun lz1 =>
       let buf2 := lineFn op lz lz1 in
       option_bind (putLine s px y (z - 1) (lineFn op buf1 buf2)) (fun px => Some (px, buf2)))))
      (zrange 1 m) (pixs (mk_img s G), ln (dw s) (fun x => op bv (F x y 0))) = Some (st m)) as HF.
  { intros m (Hm1 & Hm2). revert Hm2. refine (natlike_rect' (fun m => m <= dd s - 1 -> _ = Some (st m)) m _ _ Hm1).
    - intros _. rewrite zrange_nil by lia. cbn [fold_opt]. unfold st. f_equal. f_equal.
      + f_equal. apply mk_img_ext. intros x y' z (_ & _ & Hz). replace (z <? 0) with false by lia. rewrite andb_false_r. reflexivity.
      + apply ln_ext. intros x Hx. rewrite (bo_out s bv F x y (0 - 1)) by (unfold inside; lia). rewrite bo_in by (unfold inside; lia). reflexivity.
    - clear m Hm1. intros m Hm IH Hm2. rewrite zrange_snoc by lia. rewrite fold_opt_app, IH by lia. cbn [option_bind fold_opt]. unfold st at 1.
      rewrite (getLine_src s alias F) by (auto; try lia; intros Ea x; replace ((y =? y) && (1 + m <? m)) with false by lia; apply HA; exact Ea).
      cbn [option_bind].
      rewrite (getLine_src s alias F) by (auto; try lia; intros Ea x; replace ((y =? y) && (1 + m - 1 <? m)) with false by lia; apply HA; exact Ea).
      cbn [option_bind]. rewrite !lineFn_ln, putLine_mk by (assumption || lia). cbn [option_bind]. unfold st. f_equal. f_equal.
      + f_equal. apply mk_img_ext. intros x y' z (Hx & _ & Hz). unfold setl. destruct (Z.eqb_spec y' y) as [->|Ny]; cbn [andb]; [|reflexivity].
        destruct (Z.eqb_spec z (1 + m - 1)) as [->|Nz].
        * replace (1 + m - 1 <? m + 1) with true by lia. unfold dres. replace (1 + m - 1 + 1) with (1 + m) by lia. replace (1 + m - 1) with m by lia.
          rewrite (bo_in s bv F x y (1 + m)), (bo_in s bv F x y m) by (unfold inside; lia). reflexivity.
        * replace (z <? m + 1) with (z <? m) by lia. reflexivity.
      + apply ln_ext. intros x Hx. replace (m + 1 - 1) with m by lia. replace (1 + m - 1) with m by lia. replace (1 + m) with (m + 1) by lia.
        rewrite (bo_in s bv F x y m), (bo_in s bv F x y (m + 1)) by (unfold inside; lia). aci. }
  rewrite HF by lia. cbn [option_bind]. unfold st. cbn [fst snd]. rewrite lineFn_ln, putLine_mk by (assumption || lia).
  f_equal. f_equal. apply mk_img_ext. intros x y' z (Hx & _ & Hz). unfold setl.
  destruct (Z.eqb_spec y' y) as [->|Ny]; cbn [andb]; [|reflexivity]. destruct (Z.eqb_spec z (dd s - 1)) as [->|Nz].
  - unfold dres. rewrite (bo_out s bv F x y (dd s - 1 + 1)) by (unfold inside; lia). aci.
  - replace (z <? dd s - 1) with true by lia. reflexivity.
Qed.

Lemma depth_ok G : perm_sched (ySched c) -> (alias = true -> G = F) ->
  exec_depth c op bv alias (mk_img s F) (mk_img s G) = Some (mk_img s dres).
Proof.
  intros HS HA. unfold exec_depth. unfold height. cbn [sz]. rewrite (col_pass s _ _ G dres); [reflexivity|apply HS|].
  intros G' y Hy HG. apply depth_column_ok; auto. intros Ea x z. rewrite HG, HA by exact Ea. reflexivity.
Qed.
End Depth.

Section Hex.
Variables (alias : bool) (F : Z -> Z -> Z -> Z).
Hypothesis Hh : 2 <= dh s.
Hypothesis Hd : dd s = 1.

(** The half line used by the neighbouring lines. *)
Definition hhalf (x y z : Z) : Z :=
  if (0 <=? y) && (y <? dh s) then op (F x y z) (if Z.even y then bo s bv F (x + 1) y z else bo s bv F (x - 1) y z) else bv.
Definition hres (x y z : Z) : Z := op (hfull F x y z) (op (hhalf x (y - 1) z) (hhalf x (y + 1) z)).

Lemma half_line y : 0 <= y < dh s ->
  shifted_line op bv (ln (dw s) (fun x => F x y 0)) (if Z.even y then -1 else 1) = Some (ln (dw s) (fun x => hhalf x y 0)).
Proof.
  intros Hy. unfold shifted_line. rewrite shl_bo by (destruct (Z.even y); lia). cbn [option_bind]. rewrite lineFn_ln. f_equal.
  apply ln_ext. intros x Hx. unfold hhalf. replace ((0 <=? y) && (y <? dh s)) with true by lia. f_equal.
  destruct (Z.even y); f_equal; lia.
Qed.

Lemma full_line y : 0 <= y < dh s ->
  shifted_line op bv (ln (dw s) (fun x => hhalf x y 0)) (if Z.even y then 1 else -1) = Some (ln (dw s) (fun x => hfull F x y 0)).
Proof.
  intros Hy. unfold shifted_line. rewrite shl_ln by (destruct (Z.even y); lia). cbn [option_bind]. rewrite lineFn_ln. f_equal.
  apply ln_ext. intros x Hx. unfold hhalf, hfull. replace ((0 <=? y) && (y <? dh s)) with true by lia.
  destruct (Z.even y).
  - destruct (_ && _) eqn:B.
    + rewrite (bo_in s bv F (x - 1 + 1)) by (unfold inside; lia). rewrite (bo_in s bv F (x - 1)) by (unfold inside; lia).
      replace (x - 1 + 1) with x by lia. aci.
    + rewrite (bo_out s bv F (x - 1)) by (unfold inside; lia). aci.
  - destruct (_ && _) eqn:B.
    + rewrite (bo_in s bv F (x - -1 - 1)) by (unfold inside; lia). rewrite (bo_in s bv F (x + 1)) by (unfold inside; lia).
      replace (x - -1 - 1) with x by lia. replace (x - -1) with (x + 1) by lia. aci.
    + rewrite (bo_out s bv F (x + 1)) by (unfold inside; lia). aci.
Qed.

Lemma even_flag l : negb (xorb (negb (oddb l)) (negb (oddb 0))) = Z.even l.
Proof. rewrite !oddb_odd, <- Z.negb_odd. destruct (Z.odd l); reflexivity. Qed.

Lemma even_pred l : Z.even (l - 1) = negb (Z.even l).
Proof. rewrite Z.even_sub. destruct (Z.even l); reflexivity. Qed.

Lemma hex_slice_ok G : (alias = true -> forall x y, G x y 0 = F x y 0) ->
  hex_slice op bv alias (mk_img s F) s (pixs (mk_img s G)) 0 =
  Some (pixs (mk_img s (fun x y z => if z =? 0 then hres x y z else G x y z))).
Proof.
  intros HA. unfold hex_slice. unfold width, height. cbn [sz mk_img].
  change (Img s (map _ (grid (dw s) (dh s) (dd s)))) with (mk_img s F).
  change (map (fun '(x, y, z) => G x y z) (grid (dw s) (dh s) (dd s))) with (pixs (mk_img s G)).
  rewrite (getLine_src s alias F G 0) by (auto; lia). cbn [option_bind].
  pose proof (half_line 0 ltac:(lia)) as E1. change (Z.even 0) with true in E1. cbv iota in E1. rewrite E1. cbn [option_bind].
  pose proof (full_line 0 ltac:(lia)) as E2. change (Z.even 0) with true in E2. cbv iota in E2. rewrite E2. cbn [option_bind].
  rewrite (getLine_src s alias F G 1) by (auto; lia). cbn [option_bind].
  pose proof (half_line 1 ltac:(lia)) as E3. change (Z.even 1) with false in E3. cbv iota in E3. rewrite E3. cbn [option_bind].
  rewrite borderBuf_ln, !lineFn_ln, putLine_mk by (assumption || lia). cbn [option_bind].
  set (st := fun m : Z => (pixs (mk_img s (fun x y z => if (z =? 0) && (y <? m + 1) then hres x y z else G x y z)),
                 ln (dw s) (fun x => hhalf x m 0), ln (dw s) (fun x => hhalf x (m + 1) 0))).
  replace (pixs (mk_img s (setl G 0 0 (fun x => op bv (op (hfull F x 0 0) (hhalf x 1 0)))))) with (fst (fst (st 0))).
  2: { unfold st. cbn [fst]. f_equal. apply mk_img_ext. intros x y z (Hx & Hy & Hz). unfold setl. destruct (Z.eqb_spec z 0) as [->|N].
       - destruct (Z.eqb_spec y 0) as [->|Ny]; cbn [andb].
         + change (0 <? 0 + 1) with true. cbv iota. unfold hres. change (0 + 1) with 1. change (0 - 1) with (-1).
           replace (hhalf x (-1) 0) with bv by reflexivity. aci.
         + replace (y <? 0 + 1) with false by lia. reflexivity.
       - rewrite andb_false_r. reflexivity. }
  change (ln (dw s) (fun x => hhalf x 0 0)) with (snd (fst (st 0))). change (ln (dw s) (fun x => hhalf x 1 0)) with (snd (st 0)).
  replace (fst (fst (st 0)), snd (fst (st 0)), snd (st 0)) with (st 0) by reflexivity.
  assert (forall m, 0 <= m <= dh s - 2 ->
    fold_opt (fun '(px, buf0, buf1) l =>
       let even := negb (xorb (negb (oddb l)) (negb (oddb 0))) in
       let dx := if even then -1 else 1 in
       option_bind (getLine s (src_of alias (mk_img s F) px) l 0) (fun cur =>
       option_bind (shifted_line op bv cur dx) (fun buf2 =>
       option_bind (shifted_line op bv buf1 dx) (fun buf3 =>
       let buf4 := lineFn op buf0 buf2 in
       option_bind (putLine s px (l - 1) 0 (lineFn op buf3 buf4)) (fun px => Some (px, buf1, buf2))))))
      (zrange 2 m) (st 0) = Some (st m)) as HF.
  { intros m (Hm1 & Hm2). revert Hm2. refine (natlike_rect' (fun m => m <= dh s - 2 -> _ = Some (st m)) m _ _ Hm1).
    - intros _. rewrite zrange_nil by lia. reflexivity.
    - clear m Hm1. intros m Hm IH Hm2. rewrite zrange_snoc by lia. rewrite fold_opt_app, IH by lia. cbn [option_bind fold_opt]. unfold st at 1.
      rewrite even_flag.
      rewrite (getLine_src s alias F) by (auto; try lia; intros Ea x; replace ((0 =? 0) && (2 + m <? m + 1)) with false by lia; apply HA; exact Ea).
      cbn [option_bind]. rewrite half_line by lia. cbn [option_bind].
      replace (if Z.even (2 + m) then -1 else 1) with (if Z.even (m + 1) then 1 else -1)
        by (replace (m + 1) with (2 + m - 1) by lia; rewrite even_pred; destruct (Z.even (2 + m)); reflexivity).
      rewrite full_line by lia. cbn [option_bind]. rewrite !lineFn_ln, putLine_mk by (assumption || lia). cbn [option_bind].
      unfold st. f_equal. f_equal; [f_equal|].
      + f_equal. apply mk_img_ext. intros x y z (Hx & Hy & Hz). unfold setl. destruct (Z.eqb_spec z 0) as [->|Nz]; [|rewrite andb_false_r; reflexivity].
        rewrite andb_true_r. cbn [andb]. destruct (Z.eqb_spec y (2 + m - 1)) as [->|Ny].
        * replace (2 + m - 1 <? m + 1 + 1) with true by lia. unfold hres.
          replace (2 + m - 1 - 1) with m by lia. replace (2 + m - 1 + 1) with (2 + m) by lia. replace (2 + m - 1) with (m + 1) by lia. reflexivity.
        * replace (y <? m + 1 + 1) with (y <? m + 1) by lia. reflexivity.
      + replace (m + 1 + 1) with (2 + m) by lia. reflexivity. }
  rewrite HF by lia. cbn [option_bind]. unfold st. rewrite even_flag.
  replace (if Z.even (dh s) then -1 else 1) with (if Z.even (dh s - 2 + 1) then 1 else -1)
    by (replace (dh s - 2 + 1) with (dh s - 1) by lia; rewrite even_pred; destruct (Z.even (dh s)); reflexivity).
  rewrite full_line by lia. cbn [option_bind]. rewrite !lineFn_ln, putLine_mk by (assumption || lia).
  f_equal. f_equal. apply mk_img_ext. intros x y z (Hx & Hy & Hz). unfold setl.
  destruct (Z.eqb_spec z 0) as [->|Nz]; [|rewrite andb_false_r; reflexivity]. rewrite andb_true_r. cbn [andb].
  destruct (Z.eqb_spec y (dh s - 1)) as [->|Ny].
  - unfold hres. replace (hhalf x (dh s - 1 + 1) 0) with bv by (unfold hhalf; replace ((0 <=? dh s - 1 + 1) && (dh s - 1 + 1 <? dh s)) with false by lia; reflexivity).
    replace (dh s - 2 + 1) with (dh s - 1) by lia. replace (dh s - 1 - 1) with (dh s - 2) by lia. aci.
  - replace (y <? dh s - 2 + 1) with true by lia. reflexivity.
Qed.

Lemma hex_ok G : (alias = true -> G = F) ->
  exec_hex op bv alias (mk_img s F) (mk_img s G) = Some (mk_img s hres).
Proof.
  intros HA. unfold exec_hex. unfold depth. cbn [sz]. rewrite (slice_pass s _ G hres); [reflexivity|].
  intros G' z Hz HG. assert (z = 0) as -> by lia. apply hex_slice_ok. intros Ea x y. rewrite HG, HA by exact Ea. reflexivity.
Qed.
End Hex.
End Passes.
