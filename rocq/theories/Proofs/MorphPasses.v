From Verif Require Export Proofs.MorphFacts.

Lemma getLine_src s alias F F' y z : wf_dims s -> 0 < dw s -> 0 <= y < dh s -> 0 <= z < dd s ->
  (alias = true -> forall x, F' x y z = F x y z) ->
  getLine s (src_of alias (mk_img s F) (pixs (mk_img s F'))) y z = Some (ln (dw s) (fun x => F x y z)).
Proof.
  intros Hw H0 Hy Hz HA. unfold src_of. destruct alias; rewrite getLine_mk by assumption; [|reflexivity].
  f_equal. apply ln_ext. intros x _. apply HA. reflexivity.
Qed.

Lemma borderBuf_ln w bv : borderBuf w bv = ln w (fun _ => bv).
Proof. reflexivity. Qed.

Lemma src_x_bit odd x y z p : src_x odd x y z p = x - (px_ p + bit (odd && oddb (y + 1) && oddb (z + 1) && oddb (y - py_ p))).
Proof.
  unfold src_x. rewrite !oddb_odd, !Z.odd_add. change (Z.odd 1) with true.
  rewrite !Bool.xorb_true_r, !Z.negb_odd. unfold bit. destruct (_ && _); lia.
Qed.

Lemma all_opt_map {A B} (f : A -> option B) (g : A -> B) l : (forall a, In a l -> f a = Some (g a)) -> all_opt f l = Some (map g l).
Proof.
  induction l as [|a l IH]; intros H; [reflexivity|]. cbn. rewrite H by (cbn; auto). cbn. rewrite IH; [reflexivity|].
  intros b Hb. apply H. cbn. auto.
Qed.

Section Passes.
Variables (op : Z -> Z -> Z) (bv : Z) (s : dims).
Hypothesis Hw : wf_dims s.
Hypothesis H0 : 0 < dw s < 2 ^ 63.

Lemma horizontal_ok c alias F G : perm_sched (lineSched c) -> (alias = true -> G = F) ->
  exec_horizontal c op bv alias (mk_img s F) (mk_img s G) =
  Some (mk_img s (fun x y z => op (bo s bv F (x + 1) y z) (op (bo s bv F (x - 1) y z) (F x y z)))).
Proof.
  intros HS HA. unfold exec_horizontal. unfold height, depth. cbn [sz mk_img].
  change (Img s (map _ (grid (dw s) (dh s) (dd s)))) with (mk_img s F).
  rewrite (line_pass s _ _ G (fun x y z => op (bo s bv F (x + 1) y z) (op (bo s bv F (x - 1) y z) (F x y z)))).
  - reflexivity.
  - apply HS.
  - intros F' y z Hy Hz HF. rewrite getLine_src; try assumption; [|lia|intros E x; rewrite HF, HA by exact E; reflexivity].
    cbn [option_bind]. rewrite shl_ln by lia. cbn [option_bind]. rewrite shl_ln by lia. cbn [option_bind].
    rewrite !lineFn_ln, putLine_mk by (assumption || lia). f_equal. f_equal. apply mk_img_ext. intros x y' z' (Hx & _ & _).
    unfold setl. destruct (_ && _); [|reflexivity]. unfold bo, insideb.
    replace (x - -1) with (x + 1) by lia.
    f_equal; [|f_equal]; repeat match goal with |- context [if ?c then _ else _] => destruct c eqn:? end; try reflexivity; lia.
Qed.

(** The generic pass. *)
Definition gval (odd : bool) (F : Z -> Z -> Z -> Z) (p : point) (x y z : Z) : Z :=
  bo s bv F (src_x odd x y z p) (y - py_ p) (z - pz_ p).

Lemma generic_line_ok odd F p l k : - dw s <= px_ p -> px_ p + bit odd <= dw s ->
  generic_line odd (mk_img s F) bv l k p = Some (ln (dw s) (fun x => gval odd F p x l k)).
Proof.
  intros P1 P2. unfold generic_line, extract_translated_line. unfold height, depth, width. cbn [sz mk_img].
  unfold gval. rewrite (ln_ext (dw s) _ (fun x => bo s bv F (x - (px_ p + bit (odd && oddb (l + 1) && oddb (k + 1) && oddb (l - py_ p)))) (l - py_ p) (k - pz_ p)))
    by (intros x _; rewrite src_x_bit; reflexivity).
  destruct (_ || _) eqn:B.
  - rewrite borderBuf_ln. f_equal. apply ln_ext. intros x _. symmetry. apply bo_out. unfold inside. lia.
  - change (Img s (map _ (grid (dw s) (dh s) (dd s)))) with (mk_img s F).
    rewrite getLine_mk by (assumption || lia). cbn [option_bind]. rewrite shl_ln.
    + f_equal. apply ln_ext. intros x Hx. unfold bo, insideb.
      replace ((if odd then oddb (l + 1) && oddb (k + 1) else false) && oddb (l - py_ p)) with (odd && oddb (l + 1) && oddb (k + 1) && oddb (l - py_ p))
        by (destruct odd; reflexivity).
      repeat match goal with |- context [if ?c then _ else _] => destruct c eqn:? end; try reflexivity; lia.
    + lia.
    + destruct odd; unfold bit in *; repeat match goal with |- context [if ?c then _ else _] => destruct c eqn:? end; lia.
Qed.

Lemma generic_ok c se F G p0 pts : se_points se = p0 :: pts -> perm_sched (lineSched c) ->
  (forall p, In p (se_points se) -> - dw s <= px_ p /\ px_ p + bit (se_odd se) <= dw s) ->
  exec_generic c op bv se (mk_img s F) (mk_img s G) =
  Some (mk_img s (fun x y z => fold_left (fun acc p => op acc (gval (se_odd se) F p x y z)) pts (gval (se_odd se) F p0 x y z))).
Proof.
  intros Ep HS HF. unfold exec_generic. rewrite Ep in *. unfold height, depth. cbn [sz].
  rewrite (line_pass s _ _ G (fun x y z => fold_left (fun acc p => op acc (gval (se_odd se) F p x y z)) pts (gval (se_odd se) F p0 x y z))).
  - reflexivity.
  - apply HS.
  - intros F' y z Hy Hz _. destruct (HF p0) as (Q1 & Q2); [cbn; auto|]. rewrite generic_line_ok by assumption. cbn [option_bind].
    assert (forall p, In p pts -> generic_line (se_odd se) (mk_img s F) bv y z p = Some (ln (dw s) (fun x => gval (se_odd se) F p x y z))) as HG.
    { intros p Hp. destruct (HF p) as (P1 & P2); [cbn; auto|]. apply generic_line_ok; assumption. }
    assert (forall f0, fold_opt (fun buf p => option_bind (generic_line (se_odd se) (mk_img s F) bv y z p) (fun b2 => Some (lineFn op buf b2))) pts (ln (dw s) f0)
       = Some (ln (dw s) (fun x => fold_left (fun acc p => op acc (gval (se_odd se) F p x y z)) pts (f0 x)))) as HL.
    { clear HF Ep. induction pts as [|p pts IH]; intros f0; [reflexivity|].
      cbn [fold_opt fold_left]. rewrite HG by (cbn; auto). cbn [option_bind]. rewrite lineFn_ln.
      rewrite IH by (intros q Hq; apply HG; cbn; auto). reflexivity. }
    rewrite HL. cbn [option_bind]. rewrite putLine_mk by (assumption || lia). reflexivity.
Qed.

End Passes.

(** Passes whose threads own blocks of lines. *)
Section Blocks.
Variable s : dims.
Variable c : conf.
Hypothesis Hh : 2 <= dh s.
Let n := block_threads c (dh s).
Let first := block_first c (dh s).
Let size := block_size c (dh s).

Lemma n_pos : 1 <= n.
Proof. unfold n, block_threads. lia. Qed.

Lemma quot_bounds : 2 <= dh s / n /\ n * (dh s / n) <= dh s.
Proof.
  pose proof n_pos. split; [|apply Z.mul_div_le; lia].
  assert (n = 1 \/ n <= dh s / 4) as [E|E] by (unfold n, block_threads; lia).
  - rewrite E, Z.div_1_r. exact Hh.
  - apply Z.div_le_lower_bound; [lia|]. pose proof (Z.mul_div_le (dh s) 4 ltac:(lia)). lia.
Qed.

Lemma block_range t : 0 <= t < n -> 0 <= first t /\ 2 <= size t /\ first t + size t <= dh s.
Proof.
  intros Ht. pose proof quot_bounds as (Q1 & Q2). unfold first, size, block_first, block_size. fold n.
  set (q := dh s / n) in *. assert (0 <= t * q) by (apply Z.mul_nonneg_nonneg; lia).
  destruct (Z.eqb_spec t (n - 1)) as [->|N].
  - assert (q * (n - 1) = n * q - q) as -> by ring. lia.
  - assert (t * q + q <= n * q) by (replace (t * q + q) with ((t + 1) * q) by ring; apply Z.mul_le_mono_nonneg_r; lia). lia.
Qed.

Lemma block_next t : 0 <= t < n -> (t = n - 1 /\ first t + size t = dh s) \/ (0 <= t + 1 < n /\ first t + size t = first (t + 1)).
Proof.
  intros Ht. unfold first, size, block_first, block_size. fold n. destruct (Z.eqb_spec t (n - 1)) as [->|N]; [left|right].
  - split; [reflexivity|]. ring.
  - split; [lia|ring].
Qed.

Lemma block_cover y : 0 <= y < dh s -> exists t, 0 <= t < n /\ first t <= y < first t + size t.
Proof.
  intros Hy. pose proof n_pos. pose proof quot_bounds as (Q1 & Q2). set (q := dh s / n) in *.
  exists (Z.min (y / q) (n - 1)). pose proof (Z.div_pos y q ltac:(lia) ltac:(lia)).
  split; [lia|]. unfold first, size, block_first, block_size. fold n. fold q.
  pose proof (Z.div_mod y q ltac:(lia)). pose proof (Z.mod_pos_bound y q ltac:(lia)).
  destruct (Z.eqb_spec (Z.min (y / q) (n - 1)) (n - 1)) as [E|E].
  - rewrite E. assert ((n - 1) * q <= y / q * q) by (apply Z.mul_le_mono_nonneg_r; lia). lia.
  - replace (Z.min (y / q) (n - 1)) with (y / q) by lia. lia.
Qed.

Lemma first_inj t t' : 0 <= t < n -> 0 <= t' < n -> first t = first t' -> t = t'.
Proof.
  intros Ht Ht'. pose proof quot_bounds as (Q1 & _). unfold first, block_first. fold n. intros E.
  apply Z.mul_reg_r in E; [exact E|]. lia.
Qed.

Lemma first_mono t t' : 0 <= t -> t < t' -> t' < n -> first t + size t <= first t'.
Proof.
  intros Ht Hlt Ht'. pose proof quot_bounds as (Q1 & _). unfold first, size, block_first, block_size. fold n.
  destruct (Z.eqb_spec t (n - 1)); [lia|]. set (q := dh s / n) in *.
  replace (t * q + q) with ((t + 1) * q) by ring. apply Z.mul_le_mono_nonneg_r; lia.
Qed.

Lemma block_disjoint t t' y : 0 <= t < n -> 0 <= t' < n -> first t <= y < first t + size t -> first t' <= y < first t' + size t' -> t = t'.
Proof.
  intros Ht Ht' H H'. destruct (Z.lt_total t t') as [L|[L|L]]; [|exact L|].
  - pose proof (first_mono t t' ltac:(lia) L ltac:(lia)). lia.
  - pose proof (first_mono t' t ltac:(lia) L ltac:(lia)). lia.
Qed.

Section Run.
Variables (S : Type) (step : Z -> S -> list Z -> option (S * list Z)) (at_line : Z -> Z -> S) (fin : S).
Variables (alias : bool) (k : Z) (F R : Z -> Z -> Z -> Z).
Hypothesis Hk : 0 <= k < dd s.
Hypothesis step_mid : forall t i G, 0 <= t < n -> first t + 1 <= i < first t + size t - 1 ->
  (alias = true -> forall x y, i <= y <= first t + size t -> 0 <= y < dh s -> G x y k = F x y k) ->
  step t (at_line t i) (pixs (mk_img s G)) = Some (at_line t (i + 1), pixs (mk_img s (setl G i k (fun x => R x i k)))).
Hypothesis step_end : forall t G, 0 <= t < n ->
  (alias = true -> forall x y, first t + size t - 1 <= y <= first t + size t -> 0 <= y < dh s -> G x y k = F x y k) ->
  step t (at_line t (first t + size t - 1)) (pixs (mk_img s G)) =
  Some (fin, pixs (mk_img s (setl G (first t + size t - 1) k (fun x => R x (first t + size t - 1) k)))).
Hypothesis step_fin : forall t px, 0 <= t < n -> step t fin px = Some (fin, px).

Lemma run_threads_ok order F' :
  (forall t, In t order -> 0 <= t < n) ->
  (forall t, 0 <= t < n -> dh s < Z.of_nat (count_occ Z.eq_dec order t)) ->
  (alias = true -> forall x y, F' x y k = F x y k) ->
  exists sts G, run_threads step order (map (fun t => at_line t (first t + 1)) (zseq n)) (pixs (mk_img s F')) = Some (sts, pixs (mk_img s G)) /\
    (forall x y z, z <> k -> G x y z = F' x y z) /\
    (forall t x y, 0 <= t < n -> first t < y < first t + size t -> G x y k = R x y k).
Proof.
  intros HI HC HA. unfold run_threads.
  set (Inv := fun (done : list Z) (st : list S * list Z) => exists G, snd st = pixs (mk_img s G) /\
     Z.of_nat (length (fst st)) = n /\
     (forall x y z, z <> k -> G x y z = F' x y z) /\
     (forall t, 0 <= t < n -> exists i, first t + 1 <= i <= first t + size t /\
        (forall x y, first t < y < i -> G x y k = R x y k) /\
        (forall x y, y = first t \/ i <= y < first t + size t -> G x y k = F' x y k) /\
        ((i < first t + size t /\ rd (fst st) t = Some (at_line t i) /\ i = first t + 1 + Z.of_nat (count_occ Z.eq_dec done t)) \/
         (i = first t + size t /\ rd (fst st) t = Some fin)))).
  destruct (fold_opt_inv Inv (fun '(sts, px) tid => option_bind (rd sts tid) (fun st =>
    option_bind (step tid st px) (fun r => Some (upd sts tid (fst r), snd r)))) order
    (map (fun t => at_line t (first t + 1)) (zseq n), pixs (mk_img s F'))) as ([sts px] & E & G & Epx & HL & HO & HTh).
  - exists F'. cbn [fst snd]. split; [reflexivity|]. split; [rewrite map_length, zseq_length; pose proof n_pos; lia|].
    split; [reflexivity|]. intros t Ht. exists (first t + 1). pose proof (block_range t Ht). split; [lia|].
    split; [intros; lia|]. split; [reflexivity|]. left. split; [lia|]. split; [rewrite rd_map, rd_zseq by exact Ht; reflexivity|].
    cbn. lia.
  - intros done t todo [sts px] El (G & Epx & HL & HO & HTh). cbn [fst snd] in *. subst px.
    assert (0 <= t < n) as Ht by (apply HI; rewrite El; apply in_elt).
    pose proof (block_range t Ht) as (B1 & B2 & B3).
    destruct (HTh t Ht) as (i & Hi & HR & HU & Hst).
    assert (alias = true -> forall x y, i <= y <= first t + size t -> 0 <= y < dh s -> G x y k = F x y k) as HG.
    { intros Ea x y Hy Hyd. rewrite <- HA by exact Ea. destruct (Z.eq_dec y (first t + size t)) as [->|N]; [|apply HU; lia].
      destruct (block_next t Ht) as [(_ & En)|(Ht' & En)]; [lia|]. rewrite En.
      destruct (HTh (t + 1) Ht') as (i' & _ & _ & HU' & _). apply HU'. auto. }
    destruct Hst as [(Hlt & Est & Ei)|(Ei & Est)].
    + rewrite Est. cbn [option_bind].
      assert (exists st', step t (at_line t i) (pixs (mk_img s G)) = Some (st', pixs (mk_img s (setl G i k (fun x => R x i k)))) /\
        ((i + 1 < first t + size t /\ st' = at_line t (i + 1)) \/ (i + 1 = first t + size t /\ st' = fin))) as (st' & Es & Hst').
      { destruct (Z.eq_dec i (first t + size t - 1)) as [Ee|Ne].
        - exists fin. split; [|right; split; [lia|reflexivity]]. subst i. rewrite Ee. apply step_end; [exact Ht|].
          intros Ea x y Hy. apply HG; [exact Ea|]. lia.
        - exists (at_line t (i + 1)). split; [|left; split; [lia|reflexivity]]. apply step_mid; [exact Ht|lia|exact HG]. }
      rewrite Es. cbn [option_bind fst snd]. eexists. split; [reflexivity|].
      exists (setl G i k (fun x => R x i k)). cbn [fst snd]. split; [reflexivity|]. split; [rewrite upd_length; exact HL|]. split.
      * intros x y z Hz. unfold setl. replace ((y =? i) && (z =? k)) with false by lia. apply HO. exact Hz.
      * intros t' Ht'. destruct (Z.eq_dec t' t) as [->|Nt].
        -- exists (i + 1). split; [lia|]. split; [|split].
           ++ intros x y Hy. unfold setl. destruct (Z.eqb_spec y i) as [->|Ny]; cbn [andb].
              ** rewrite Z.eqb_refl. reflexivity.
              ** apply HR. lia.
           ++ intros x y Hy. unfold setl. replace (y =? i) with false by lia. cbn [andb]. apply HU. lia.
           ++ rewrite rd_upd. replace ((t =? t) && (0 <=? t) && (t <? Z.of_nat (length sts))) with true by lia. destruct Hst' as [(Hs & ->)|(Hs & ->)].
              ** left. split; [exact Hs|]. split; [reflexivity|]. rewrite count_occ_app. cbn. destruct (Z.eq_dec t t); [|contradiction]. lia.
              ** right. split; [exact Hs|]. reflexivity.
        -- destruct (HTh t' Ht') as (i' & Hi' & HR' & HU' & Hst'').
           assert (forall y, first t' <= y < first t' + size t' -> y <> i) as Hdis.
           { intros y Hy ->. apply Nt. apply (block_disjoint t' t i Ht' Ht Hy). lia. }
           exists i'. split; [exact Hi'|]. split; [|split].
           ++ intros x y Hy. unfold setl. replace (y =? i) with false by (pose proof (Hdis y); lia). cbn [andb]. apply HR'. exact Hy.
           ++ intros x y Hy. unfold setl. replace (y =? i) with false by (pose proof (Hdis y); pose proof (block_range t' Ht'); lia). cbn [andb]. apply HU'. exact Hy.
           ++ rewrite rd_upd. replace (t =? t') with false by lia. cbn [andb].
              rewrite count_occ_app. cbn. destruct (Z.eq_dec t t'); [congruence|].
              replace (count_occ Z.eq_dec done t' + 0)%nat with (count_occ Z.eq_dec done t') by lia. exact Hst''.
    + rewrite Est. cbn [option_bind]. rewrite step_fin by exact Ht. cbn [option_bind fst snd]. eexists. split; [reflexivity|].
      exists G. cbn [fst snd]. split; [reflexivity|]. split; [rewrite upd_length; exact HL|]. split; [exact HO|].
      intros t' Ht'. destruct (Z.eq_dec t' t) as [->|Nt].
      * exists i. split; [lia|]. split; [exact HR|]. split; [exact HU|]. right. split; [exact Ei|]. rewrite rd_upd. replace ((t =? t) && (0 <=? t) && (t <? Z.of_nat (length sts))) with true by lia. reflexivity.
      * destruct (HTh t' Ht') as (i' & Hi' & HR' & HU' & Hst'').
        exists i'. split; [exact Hi'|]. split; [exact HR'|]. split; [exact HU'|].
        rewrite rd_upd. replace (t =? t') with false by lia. cbn [andb].
        rewrite count_occ_app. cbn. destruct (Z.eq_dec t t'); [congruence|].
        replace (count_occ Z.eq_dec done t' + 0)%nat with (count_occ Z.eq_dec done t') by lia. exact Hst''.
  - cbn [fst snd] in *. subst px. exists sts, G. split; [exact E|]. split; [exact HO|].
    intros t x y Ht Hy. destruct (HTh t Ht) as (i & Hi & HR & _ & [(Hlt & _ & Ei)|(-> & _)]); [|apply HR; exact Hy].
    exfalso. specialize (HC t Ht). pose proof (block_range t Ht). lia.
Qed.

End Run.

Lemma put_firsts_ok k (R : Z -> Z -> Z -> Z) order G : wf_dims s -> 0 < dw s < 2 ^ 63 -> 0 <= k < dd s -> (forall t, In t order <-> 0 <= t < n) ->
  (forall t x y, 0 <= t < n -> first t < y < first t + size t -> G x y k = R x y k) ->
  put_firsts c s (dh s) k (map (fun t => ln (dw s) (fun x => R x (first t) k)) (zseq n)) order (pixs (mk_img s G)) =
  Some (pixs (mk_img s (fun x y z => if z =? k then R x y z else G x y z))).
Proof.
  intros Hw H0 Hk HI HR. unfold put_firsts.
  destruct (fold_opt_inv (fun done px => exists G', px = pixs (mk_img s G') /\ (forall x y z, z <> k -> G' x y z = G x y z) /\
     (forall t x y, 0 <= t < n -> first t < y < first t + size t -> G' x y k = R x y k) /\
     (forall t x, In t done -> G' x (first t) k = R x (first t) k))
     (fun px tid => option_bind (rd (map (fun t => ln (dw s) (fun x => R x (first t) k)) (zseq n)) tid)
        (fun l => putLine s px (block_first c (dh s) tid) k l)) order (pixs (mk_img s G))) as (px & E & G' & -> & HO & HR' & HD).
  - exists G. split; [reflexivity|]. split; [reflexivity|]. split; [exact HR|]. intros t x [].
  - intros done t todo px El (G' & -> & HO & HR' & HD).
    assert (0 <= t < n) as Ht by (apply HI; rewrite El; apply in_elt). pose proof (block_range t Ht) as (B1 & B2 & B3).
    rewrite rd_map, rd_zseq by exact Ht. cbn [option_map option_bind]. fold (first t). rewrite putLine_mk by (assumption || lia).
    eexists. split; [reflexivity|]. eexists. split; [reflexivity|]. split; [|split].
    + intros x y z Hz. unfold setl. replace ((y =? first t) && (z =? k)) with false by lia. apply HO. exact Hz.
    + intros t' x y Ht' Hy. unfold setl. destruct (Z.eqb_spec y (first t)) as [->|N]; cbn [andb]; [|apply (HR' t'); assumption].
      rewrite Z.eqb_refl. reflexivity.
    + intros t' x Hin. unfold setl. destruct (Z.eqb_spec (first t') (first t)) as [Ef|N]; cbn [andb].
      * rewrite Z.eqb_refl. rewrite Ef. reflexivity.
      * apply HD. apply in_app_iff in Hin as [Hin|[<-|[]]]; [exact Hin|contradiction].
  - rewrite E. f_equal. f_equal. apply mk_img_ext. intros x y z (Hx & Hy & Hz). destruct (Z.eqb_spec z k) as [->|N]; [|apply HO; exact N].
    destruct (block_cover y Hy) as (t & Ht & Hty). destruct (Z.eq_dec y (first t)) as [->|Ny]; [apply HD; apply HI; exact Ht|].
    apply (HR' t); [exact Ht|lia].
Qed.
End Blocks.
