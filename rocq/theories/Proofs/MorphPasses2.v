From Verif Require Export Proofs.MorphPasses.

Lemma combine_map_r {A B} (g : A -> B) l : combine l (map g l) = map (fun a => (a, g a)) l.
Proof. induction l as [|a l IH]; [reflexivity|]. cbn. rewrite IH. reflexivity. Qed.

(** A loop over the slices in which the iteration of a slice reads, in the output image, that slice only. *)
Lemma slice_pass s body F0 (Rf : Z -> Z -> Z -> Z) :
  (forall F z, 0 <= z < dd s -> (forall x y, F x y z = F0 x y z) ->
     body (pixs (mk_img s F)) z = Some (pixs (mk_img s (fun x y z' => if z' =? z then Rf x y z' else F x y z')))) ->
  fold_opt body (zseq (dd s)) (pixs (mk_img s F0)) = Some (pixs (mk_img s Rf)).
Proof.
  intros HB. pose proof (zseq_NoDup (dd s)) as HN.
  destruct (fold_opt_inv (fun done px => exists F, px = pixs (mk_img s F) /\
     (forall x y z, In z done -> F x y z = Rf x y z) /\ (forall x y z, ~ In z done -> F x y z = F0 x y z)) body (zseq (dd s))
     (pixs (mk_img s F0))) as (px & E & F & -> & H1 & H2).
  - exists F0. split; [reflexivity|]. split; [intros ? ? ? []|auto].
  - intros done z todo px El (F & -> & H1 & H2).
    assert (In z (zseq (dd s))) as Hz by (rewrite El; apply in_elt). apply zseq_In in Hz.
    assert (~ In z done) as Hnd.
    { rewrite El in HN. apply NoDup_remove_2 in HN. intros H. apply HN. apply in_app_iff. auto. }
    rewrite HB; auto. eexists. split; [reflexivity|]. eexists. split; [reflexivity|]. split.
    + intros x y z' Hd. destruct (Z.eqb_spec z' z) as [->|N]; [reflexivity|]. apply H1.
      apply in_app_iff in Hd as [Hd|[Hd|[]]]; [exact Hd|congruence].
    + intros x y z' Hd. rewrite in_app_iff in Hd. destruct (Z.eqb_spec z' z) as [->|N]; [exfalso; apply Hd; cbn; auto|]. apply H2. tauto.
  - rewrite E. f_equal. f_equal. apply mk_img_ext. intros x y z (Hx & Hy & Hz). apply H1. apply zseq_In. exact Hz.
Qed.

Section Passes.
Variables (op : Z -> Z -> Z) (Rel : Z -> Z -> Prop) (bv : Z) (s : dims).
Hypothesis op_lub : forall a b c, Rel (op a b) c <-> Rel a c /\ Rel b c.
Hypothesis Rel_eq : forall a b, (forall c, Rel a c <-> Rel b c) -> a = b.
Hypothesis Hw : wf_dims s.
Hypothesis H0 : 0 < dw s < 2 ^ 63.

Ltac aci := apply Rel_eq; intros ?; rewrite ?op_lub; tauto.

Section Vert.
Variables (c : conf) (alias : bool) (F : Z -> Z -> Z -> Z).
Hypothesis Hh : 2 <= dh s.
Let first := block_first c (dh s).
Let size := block_size c (dh s).

Definition vres (x y z : Z) : Z :=
  op (op (bo s bv F x (y - 1) z) (bo s bv F x y z)) (op (bo s bv F x y z) (bo s bv F x (y + 1) z)).

Lemma bo_line x y k : 0 <= x < dw s -> 0 <= y < dh s -> 0 <= k < dd s -> bo s bv F x y k = F x y k.
Proof. intros. apply bo_in. unfold inside. auto. Qed.
Lemma bo_noline x y k : ~ (0 <= y < dh s) -> bo s bv F x y k = bv.
Proof. clear -bv. intros Hy. apply bo_out. intros (_ & H & _). exact (Hy H). Qed.

Lemma vert_init_ok k G t : 0 <= k < dd s -> 0 <= t < block_threads c (dh s) -> (alias = true -> forall x y, G x y k = F x y k) ->
  vert_init c op bv (mk_img s F) (src_of alias (mk_img s F) (pixs (mk_img s G))) k t =
  Some (ln (dw s) (fun x => op (F x (first t) k) (F x (first t + 1) k)), ln (dw s) (fun x => vres x (first t) k)).
Proof.
  intros Hk Ht HA. destruct (block_range s c Hh t Ht) as (B1 & B2 & B3). fold first in B1, B3. fold size in B2, B3.
  unfold vert_init. unfold height, width. cbn [sz mk_img]. fold (first t).
  change (Img s (map _ (grid (dw s) (dh s) (dd s)))) with (mk_img s F).
  rewrite (getLine_src s alias F G (first t)) by (auto; lia). cbn [option_bind].
  assert ((if first t =? 0 then Some (borderBuf (dw s) bv) else getLine s (src_of alias (mk_img s F) (pixs (mk_img s G))) (first t - 1) k)
     = Some (ln (dw s) (fun x => bo s bv F x (first t - 1) k))) as ->.
  { destruct (Z.eqb_spec (first t) 0) as [E|N].
    - rewrite borderBuf_ln. f_equal. apply ln_ext. intros x _. symmetry. apply bo_noline. lia.
    - rewrite (getLine_src s alias F G) by (auto; lia). f_equal. apply ln_ext. intros x Hx. symmetry. apply bo_line; lia. }
  cbn [option_bind]. rewrite (getLine_src s alias F G (first t + 1)) by (auto; lia). cbn [option_bind].
  rewrite !lineFn_ln. f_equal. f_equal. apply ln_ext. intros x Hx. unfold vres.
  rewrite (bo_line x (first t)), (bo_line x (first t + 1)) by lia. aci.
Qed.

Definition v_at (k t i : Z) : vthread := VRun i (ln (dw s) (fun x => op (F x (i - 1) k) (F x i k))).

Lemma vert_step_mid k t i G : 0 <= k < dd s -> 0 <= t < block_threads c (dh s) -> first t + 1 <= i < first t + size t - 1 ->
  (alias = true -> forall x y, i <= y <= first t + size t -> 0 <= y < dh s -> G x y k = F x y k) ->
  vert_step c op bv alias (mk_img s F) s k t (v_at k t i) (pixs (mk_img s G)) =
  Some (v_at k t (i + 1), pixs (mk_img s (setl G i k (fun x => vres x i k)))).
Proof.
  intros Hk Ht Hi HA. destruct (block_range s c Hh t Ht) as (B1 & B2 & B3). fold first in B1, B3. fold size in B2, B3.
  unfold vert_step, v_at. unfold height, width. cbn [sz mk_img]. fold (first t) (size t).
  change (Img s (map _ (grid (dw s) (dh s) (dd s)))) with (mk_img s F).
  destruct (Z.ltb_spec i (first t + size t - 1)); [|lia].
  rewrite (getLine_src s alias F G i), (getLine_src s alias F G (i + 1)) by (auto; try lia; intros Ea x; apply HA; (exact Ea || lia)).
  cbn [option_bind]. rewrite !lineFn_ln. rewrite putLine_mk by (assumption || lia). cbn [option_bind].
  f_equal. f_equal; [replace (i + 1 - 1) with i by lia; reflexivity|]. f_equal. apply mk_img_ext. intros x y' z' (Hx & _).
  unfold setl. destruct (_ && _); [|reflexivity]. unfold vres.
  rewrite (bo_line x (i - 1)), (bo_line x i), (bo_line x (i + 1)) by lia. reflexivity.
Qed.

Lemma vert_step_end k t G : 0 <= k < dd s -> 0 <= t < block_threads c (dh s) ->
  (alias = true -> forall x y, first t + size t - 1 <= y <= first t + size t -> 0 <= y < dh s -> G x y k = F x y k) ->
  vert_step c op bv alias (mk_img s F) s k t (v_at k t (first t + size t - 1)) (pixs (mk_img s G)) =
  Some (VDone, pixs (mk_img s (setl G (first t + size t - 1) k (fun x => vres x (first t + size t - 1) k)))).
Proof.
  intros Hk Ht HA. destruct (block_range s c Hh t Ht) as (B1 & B2 & B3). fold first in B1, B3. fold size in B2, B3.
  unfold vert_step, v_at. unfold height, width. cbn [sz mk_img]. fold (first t) (size t).
  change (Img s (map _ (grid (dw s) (dh s) (dd s)))) with (mk_img s F).
  destruct (Z.ltb_spec (first t + size t - 1) (first t + size t - 1)); [lia|].
  rewrite (getLine_src s alias F G (first t + size t - 1)) by (auto; try lia; intros Ea x; apply HA; (exact Ea || lia)).
  cbn [option_bind].
  assert ((if first t + size t =? dh s then Some (borderBuf (dw s) bv) else getLine s (src_of alias (mk_img s F) (pixs (mk_img s G))) (first t + size t) k)
     = Some (ln (dw s) (fun x => bo s bv F x (first t + size t) k))) as ->.
  { destruct (Z.eqb_spec (first t + size t) (dh s)) as [E|N].
    - rewrite borderBuf_ln. f_equal. apply ln_ext. intros x _. symmetry. apply bo_noline. lia.
    - rewrite (getLine_src s alias F G) by (auto; try lia; intros Ea x; apply HA; (exact Ea || lia)).
      f_equal. apply ln_ext. intros x Hx. symmetry. apply bo_line; lia. }
  cbn [option_bind]. rewrite !lineFn_ln. rewrite putLine_mk by (assumption || lia). cbn [option_bind].
  f_equal. f_equal. f_equal. apply mk_img_ext. intros x y' z' (Hx & _).
  unfold setl. destruct (_ && _); [|reflexivity]. unfold vres.
  rewrite (bo_line x (first t + size t - 1 - 1)), (bo_line x (first t + size t - 1)) by lia.
  replace (first t + size t - 1 + 1) with (first t + size t) by lia. reflexivity.
Qed.

Lemma vert_slice_ok k G : legal_conf (dh s) c -> 0 <= k < dd s -> (alias = true -> forall x y, G x y k = F x y k) ->
  vert_slice c op bv alias (mk_img s F) s (pixs (mk_img s G)) k =
  Some (pixs (mk_img s (fun x y z => if z =? k then vres x y z else G x y z))).
Proof.
  intros (_ & _ & _ & LL & M1 & M2) Hk HA. unfold vert_slice. unfold height. cbn [sz mk_img].
  change (Img s (map _ (grid (dw s) (dh s) (dd s)))) with (mk_img s F).
  change (map (fun '(x, y, z) => G x y z) (grid (dw s) (dh s) (dd s))) with (pixs (mk_img s G)).
  rewrite (all_opt_map _ (fun t => (ln (dw s) (fun x => op (F x (first t) k) (F x (first t + 1) k)), ln (dw s) (fun x => vres x (first t) k))))
    by (intros t Ht; apply vert_init_ok; [exact Hk|apply zseq_In; exact Ht|exact HA]).
  cbn [option_bind]. rewrite combine_map_r, !map_map.
  match goal with |- context [run_threads _ _ ?l _] =>
    replace l with (map (fun t => v_at k t (first t + 1)) (zseq (block_threads c (dh s)))) by
      (apply map_ext; intros t; unfold v_at; replace (first t + 1 - 1) with (first t) by lia; reflexivity) end.
  destruct (run_threads_ok s c Hh vthread (vert_step c op bv alias (mk_img s F) s k) (v_at k) VDone alias k F vres) with (order := midSched c k) (F' := G)
    as (sts & G' & E & HO & HR).
  - exact Hk.
  - intros t i G' Ht Hi HG. apply vert_step_mid; assumption.
  - intros t G' Ht HG. apply vert_step_end; assumption.
  - reflexivity.
  - apply M1.
  - apply M2.
  - exact HA.
  - fold first in E. rewrite E. cbn [option_bind snd]. unfold first.
    rewrite (put_firsts_ok s c Hh k vres (lastSched c k (zseq (block_threads c (dh s)))) G' Hw H0 Hk).
    + f_equal. f_equal. apply mk_img_ext. intros x y z _. destruct (Z.eqb_spec z k) as [->|N]; [reflexivity|]. apply HO. exact N.
    + intros t. rewrite <- zseq_In. split; apply Permutation_in; [|apply Permutation_sym]; apply LL.
    + exact HR.
Qed.

Lemma vertical_ok G : legal_conf (dh s) c -> (alias = true -> G = F) ->
  exec_vertical c op bv alias (mk_img s F) (mk_img s G) = Some (mk_img s vres).
Proof.
  intros HL HA. unfold exec_vertical. unfold depth. cbn [sz]. rewrite (slice_pass s _ G vres); [reflexivity|].
  intros G' z Hz HG. apply vert_slice_ok; auto. intros Ea x y. rewrite HG, HA by exact Ea. reflexivity.
Qed.
End Vert.
End Passes.
