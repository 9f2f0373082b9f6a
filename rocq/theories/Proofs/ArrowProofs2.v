(** arrowMin and arrowMinStep. *)
From Verif Require Export Proofs.ArrowProofs.

Definition mstep (t t2 : ity) (b c : Z) (st : Z * Z) : Z * Z :=
  let m' := px_inf c (fst st) in
  let a' := px_test (if c <? fst st then tmax t else 0) 0 (snd st) in
  (m', wrap t2 (a' + (if c =? m' then b else 0))).
Fixpoint macc (t t2 : ity) (vals : list Z) (n : Z) (st : Z * Z) : Z * Z :=
  match vals with [] => st | u :: vs => macc t t2 vs (n + 1) (mstep t t2 (wrap t2 (2 ^ n)) u st) end.

Definition minv (t2 : ity) (m0 : Z) (done : list Z) (st : Z * Z) : Prop :=
  least (fun u => u = m0 \/ In u done) (fst st) /\ 0 <= snd st < 2 ^ nbits t2 /\
  forall k, 0 <= k -> (Z.testbit (snd st) k = true <-> k < nbits t2 /\ rd done k = Some (fst st)).

Lemma small_add t2 a b : is_signed t2 = false -> Z.land a b = 0 -> wrap t2 (a + b) = wrap t2 (Z.lor a b).
Proof. intros Hu E. rewrite Z.add_nocarry_lxor, Z.lxor_lor by exact E. reflexivity. Qed.

Lemma minv_step t t2 m0 u done st : is_signed t2 = false -> minv t2 m0 done st ->
  minv t2 m0 (done ++ [u]) (mstep t t2 (wrap t2 (2 ^ Z.of_nat (length done))) u st).
Proof.
  intros Hu ((L1 & L2) & Rg & B). set (n := Z.of_nat (length done)). unfold mstep. destruct st as (m, a). cbn [fst snd] in *.
  set (m' := px_inf u m). set (a' := px_test _ _ _).
  assert (Hm : m' = Z.min u m) by (unfold m', px_inf; destruct (u <? m) eqn:?; lia).
  assert (Ha' : a' = if u <? m then 0 else a). { unfold a', px_test. destruct (u <? m); [replace (nz (tmax t)) with true by (destruct t; reflexivity)|]; reflexivity. }
  assert (Rg' : 0 <= a' < 2 ^ nbits t2) by (rewrite Ha'; destruct (u <? m); lia).
  assert (B' : forall k, 0 <= k -> (Z.testbit a' k = true <-> k < nbits t2 /\ rd done k = Some m')).
  { intros k Hk. rewrite Ha'. destruct (u <? m) eqn:E.
    - rewrite Z.testbit_0_l. split; [discriminate|]. intros (_ & R). apply rd_In in R. specialize (L2 _ (or_intror R)). lia.
    - replace m' with m by lia. apply B. exact Hk. }
  assert (Nn : forall k, n <= k -> rd done k = None) by (intros k Hk; apply rd_out; unfold n in Hk; lia).
  assert (Nb : forall k, n <= k -> Z.testbit a' k = false).
  { intros k Hk. destruct (Z.testbit a' k) eqn:T; [|reflexivity]. apply B' in T; [|unfold n in *; lia]. destruct T as (_ & T). rewrite (Nn k Hk) in T. discriminate. }
  assert (Hn : 0 <= n) by (unfold n; lia).
  assert (Hb : forall k, 0 <= k -> Z.testbit (if u =? m' then wrap t2 (2 ^ n) else 0) k = (k =? n) && (k <? nbits t2) && (u =? m')).
  { intros k Hk. destruct (u =? m'); [|rewrite Z.testbit_0_l, andb_false_r; reflexivity]. rewrite wrap_bit, Z.pow2_bits_eqb by (assumption || lia). rewrite andb_true_r, (Z.eqb_sym n k), andb_comm. reflexivity. }
  rewrite small_add; [|exact Hu|].
  2:{ apply Z.bits_inj. intros k. rewrite Z.land_spec, Z.testbit_0_l. destruct (Z_lt_le_dec k 0) as [Ng|Hk]; [rewrite Z.testbit_neg_r by exact Ng; reflexivity|]. rewrite Hb by exact Hk.
      destruct (k =? n) eqn:E; [|apply andb_false_r]. rewrite Nb by lia. reflexivity. }
  split; [|split; [apply wrap_range; exact Hu|]].
  - cbn [fst]. split.
    + rewrite Hm. destruct (Z_le_gt_dec u m) as [L|L]; [right; rewrite Z.min_l by lia; apply in_or_app; right; left; reflexivity|].
      rewrite Z.min_r by lia. destruct L1 as [->|I]; [left; reflexivity|right; apply in_or_app; left; exact I].
    + intros v [->|I]; [specialize (L2 m0 (or_introl eq_refl)); lia|]. apply in_app_iff in I as [I|[<-|[]]]; [specialize (L2 v (or_intror I)); lia|lia].
  - cbn [fst snd]. intros k Hk. rewrite wrap_bit by exact Hu. rewrite Z.lor_spec, Hb by exact Hk.
    rewrite rd_app. fold n. destruct (Z.eq_dec k n) as [->|Nk].
    + rewrite (Nb n) by lia. rewrite Z.eqb_refl. cbn [andb orb]. rewrite Nn by lia. replace (n <? n) with false by lia. rewrite Z.sub_diag. cbn [rd].
      rewrite !andb_true_iff. replace (rd [u] 0) with (Some u) by reflexivity. split; [intros (Q1 & Q2 & Q3); split; [lia|f_equal; lia]|intros (Q1 & Q2); injection Q2; lia].
    + replace (k =? n) with false by lia. cbn [andb]. rewrite orb_false_r, andb_true_iff, B' by exact Hk.
      destruct (k <? n) eqn:E.
      * split; [intros (Q1 & Q2 & Q3); split; [lia|exact Q3]|intros (Q1 & Q2); repeat split; try lia; exact Q2].
      * rewrite (Nn k) by lia. rewrite rd_out by (cbn [length]; lia). split; [intros (_ & _ & Q); discriminate|intros (_ & Q); discriminate].
Qed.

Lemma macc_inv t t2 m0 : is_signed t2 = false -> forall vals done st, minv t2 m0 done st -> minv t2 m0 (done ++ vals) (macc t t2 vals (Z.of_nat (length done)) st).
Proof.
  intros Hu. induction vals as [|u vals IH]; intros done st H; [rewrite app_nil_r; exact H|]. cbn [macc].
  replace (done ++ u :: vals) with ((done ++ [u]) ++ vals) by (rewrite <- app_assoc; reflexivity).
  replace (Z.of_nat (length done) + 1) with (Z.of_nat (length (done ++ [u]))) by (rewrite app_length; cbn [length]; lia). apply IH. apply minv_step; assumption.
Qed.
Lemma macc_ok t t2 m0 vals : is_signed t2 = false -> minv t2 m0 vals (macc t t2 vals 0 (m0, 0)).
Proof.
  intros Hu. apply (macc_inv t t2 m0 Hu vals [] (m0, 0)). pose proof (nbits_pos t2). split; [split; [left; reflexivity|intros u [->|[]]; cbn; lia]|]. cbn [fst snd]. split; [split; [lia|apply Z.pow_pos_nonneg; lia]|].
  intros k Hk. rewrite Z.testbit_0_l, rd_out by (cbn; lia). split; [discriminate|intros (_ & Q); discriminate].
Qed.

Section Lines.
Variables (t t2 : ity) (se : strelt) (bv : Z) (s : dims) (F : Z -> Z -> Z -> Z).
Hypothesis Hw : wf_dims s.
Hypothesis H0 : 0 < dw s < 2 ^ 63.
Hypothesis HN : near_points se s.
Hypothesis HF : flat_se se.

Lemma arrowMin_src_ok l k p : 0 <= k < dd s -> In p (se_points se) -> arrowMin_src se (mk_img s F) bv l k p = Some (ln (dw s) (fun x => aval se bv s F p x l k)).
Proof using Hw H0 HN HF.
  intros Hk Hp. rewrite <- (arrow_src_ok se bv s F Hw H0 HN l k p Hp). unfold arrowMin_src, arrow_src, extract_translated_line. rewrite (HF p Hp), Z.add_0_r. reflexivity.
Qed.

Definition stepv (step : bool) (a c : Z) : Z := if step then if c >=? a then c else bv else c.
Lemma arrowMin_point_ln b w f m a : arrowMin_point t t2 b (ln w f) (ln w m, ln w a) =
  (ln w (fun x => fst (mstep t t2 b (f x) (m x, a x))), ln w (fun x => snd (mstep t t2 b (f x) (m x, a x)))).
Proof. clear. unfold arrowMin_point. rewrite !map2_ln, map3_ln. reflexivity. Qed.

Lemma macc_pair : forall vals n st, macc t t2 vals n st = macc t t2 vals n (fst st, snd st).
Proof. intros vals n (m, a). reflexivity. Qed.

Lemma arrowMin_points_ok step l k (g : Z -> Z) : 0 <= k < dd s -> forall pts n m a, (forall p, In p pts -> In p (se_points se)) -> n + Z.of_nat (length pts) <= 64 ->
  arrowMin_points step t t2 se (mk_img s F) bv l k (ln (dw s) g) pts n (ln (dw s) m, ln (dw s) a) =
  Some (ln (dw s) (fun x => snd (macc t t2 (map (fun p => stepv step (g x) (aval se bv s F p x l k)) pts) n (m x, a x)))).
Proof using Hw H0 HN HF.
  intros Hk. induction pts as [|p pts IH]; intros n m a Hp Hn; [reflexivity|]. cbn [arrowMin_points map macc length] in *. unfold arrow_bit. replace (n <? 64) with true by lia. cbn [option_bind].
  rewrite arrowMin_src_ok by (assumption || (apply Hp; left; reflexivity)). cbn [option_bind].
  assert (E : (if step then map2 (fun c i => if c >=? i then c else bv) (ln (dw s) (fun x => aval se bv s F p x l k)) (ln (dw s) g) else ln (dw s) (fun x => aval se bv s F p x l k))
            = ln (dw s) (fun x => stepv step (g x) (aval se bv s F p x l k))). { destruct step; [rewrite map2_ln; reflexivity|reflexivity]. }
  rewrite E, arrowMin_point_ln. rewrite IH; [|intros q Hq; apply Hp; right; exact Hq|lia]. reflexivity.
Qed.

Lemma arrowMin_exec_ok step c G : perm_sched (lineSched c) -> se_points se <> [] -> (length (se_points se) <= 64)%nat ->
  arrowMin_exec step t t2 c bv se (mk_img s F) (mk_img s G) =
  Some (1, mk_img s (fun x y z => snd (macc t t2 (map (fun p => stepv step (F x y z) (aval se bv s F p x y z)) (se_points se)) 0 (if step then bv else F x y z, 0)))).
Proof using Hw H0 HN HF.
  intros HS HE HL. unfold arrowMin_exec. rewrite same_size_true by reflexivity. cbn [negb]. destruct (se_points se) as [|p0 ps] eqn:Ep; [contradiction|]. rewrite <- Ep. clear HE.
  unfold height, depth, width. cbn [sz mk_img]. change (Img s (map _ (grid (dw s) (dh s) (dd s)))) with (mk_img s F).
  rewrite (line_pass s _ _ G (fun x y z => snd (macc t t2 (map (fun p => stepv step (F x y z) (aval se bv s F p x y z)) (se_points se)) 0 (if step then bv else F x y z, 0)))).
  - reflexivity.
  - apply HS.
  - intros F' y z Hy Hz _. rewrite getLine_mk by (assumption || lia). cbn [option_bind]. change (map (fun _ => 0) (zseq (dw s))) with (ln (dw s) (fun _ => 0)).
    assert (E : (if step then borderBuf (dw s) bv else ln (dw s) (fun x => F x y z)) = ln (dw s) (fun x => if step then bv else F x y z)). { destruct step; [apply borderBuf_ln|reflexivity]. }
    rewrite E. rewrite arrowMin_points_ok; [|lia|auto|rewrite Ep; cbn [length] in *; lia]. cbn [option_bind]. rewrite putLine_mk by (assumption || lia). reflexivity.
Qed.
End Lines.

Lemma min_run step t t2 c bv se im out : arrow_ok t2 se c im out -> flat_se se ->
  exists res, arrowMin_exec step t t2 c bv se im out = Some (1, res) /\ sz res = sz im /\ wf_img res /\
    forall x y z a v, pixel_is im x y z a -> pixel_is res x y z v ->
      exists m, minv t2 (if step then bv else a) (map (fun p => stepv bv step a (aval se bv (sz im) (pxv im) p x y z)) (se_points se)) (m, v).
Proof.
  intros (Hu & G & Wo & So & HL & HN & HE & Hn) HF. pose proof G as (W & N & B). assert (Wd : wf_dims (sz im)) by apply W.
  pose proof (arrowMin_exec_ok t t2 se bv (sz im) (pxv im) Wd ltac:(clear - N B; unfold nonempty in N; lia) HN HF step c (pxv out) ltac:(apply HL) HE Hn) as E.
  rewrite <- (mk_pix im W) in E. rewrite <- So in E at 1. rewrite <- (mk_pix out Wo) in E. eexists. split; [exact E|]. split; [reflexivity|]. split; [apply mk_img_wf; exact Wd|].
  intros x y z a v Pa Pv. apply mk_img_is in Pv as (_ & ->); [|exact Wd]. assert (Ea : pxv im x y z = a) by (apply pxv_is; exact Pa). rewrite Ea.
  set (vals := map _ _). exists (fst (macc t t2 vals 0 (if step then bv else a, 0))). rewrite <- surjective_pairing. apply macc_ok. exact Hu.
Qed.

Lemma reads_aval se bv im x y z p u : wf_img im -> reads_ahead se im bv x y z p u <-> u = aval se bv (sz im) (pxv im) p x y z.
Proof. intros W. apply reads_bo. exact W. Qed.

Lemma arrowMin_ok t t2 c bv se im out : arrow_ok t2 se c im out -> flat_se se -> exists res, arrowMin t t2 c bv se im out = Some (1, res) /\ min_arrows t2 se bv im res.
Proof.
  intros H HF. assert (W : wf_img im) by apply H. destruct (min_run false t t2 c bv se im out H HF) as (res & E & S & Wr & V). exists res. split; [exact E|]. split; [exact S|]. split; [exact Wr|].
  intros x y z a v Pa Pv. destruct (V x y z a v Pa Pv) as (m & (L1 & L2) & Rg & B). cbn [fst snd] in *. split; [exact Rg|]. intros k p Rk Lk.
  rewrite B by (apply rd_Some_range in Rk; lia). rewrite rd_map, Rk. cbn [option_map stepv].
  assert (LL : least (around se im bv x y z a) m).
  { split.
    - destruct L1 as [->|I]; [left; reflexivity|]. apply in_map_iff in I as (q & <- & Iq). right. exists q. split; [exact Iq|]. apply reads_aval; [exact W|reflexivity].
    - intros u [->|(q & Iq & Q)]; [apply L2; left; reflexivity|]. apply L2. right. apply in_map_iff. exists q. split; [|exact Iq]. symmetry. apply reads_aval; assumption. }
  split.
  - intros (_ & Q). injection Q as Q. exists m. split; [apply reads_aval; [exact W|symmetry; exact Q]|exact LL].
  - intros (u & U & (M1 & M2)). split; [exact Lk|]. apply reads_aval in U; [|exact W]. rewrite <- U. f_equal. destruct LL as (Q1 & Q2). specialize (M2 _ Q1). specialize (Q2 _ M1). lia.
Qed.

Lemma arrowMinStep_ok t c bv se im out : arrow_ok t (noCenter se) c im out -> flat_se (noCenter se) ->
  exists res, arrowMinStep t c bv se im out = Some (1, res) /\ step_arrows t (noCenter se) bv im res.
Proof.
  intros H HF. assert (W : wf_img im) by apply H. destruct (min_run true t t c bv (noCenter se) im out H HF) as (res & E & S & Wr & V). exists res. split; [exact E|]. split; [exact S|]. split; [exact Wr|].
  intros x y z a v Pa Pv. destruct (V x y z a v Pa Pv) as (m & (L1 & L2) & Rg & B). cbn [fst snd] in *. split; [exact Rg|]. intros k p u Rk Lk Ru.
  apply reads_aval in Ru; [|exact W]. rewrite B by (apply rd_Some_range in Rk; lia). rewrite rd_map, Rk. cbn [option_map]. rewrite <- Ru.
  assert (Hle : m <= bv) by (apply L2; left; reflexivity).
  assert (Hin : forall w, not_below (noCenter se) im bv x y z a w -> m <= w).
  { intros w (Lw & q & Iq & Q). apply L2. right. apply in_map_iff. exists q. split; [|exact Iq]. apply reads_aval in Q; [|exact W]. rewrite <- Q. unfold stepv. replace (w >=? a) with true by lia. reflexivity. }
  assert (Hlt : m < bv -> not_below (noCenter se) im bv x y z a m).
  { intros Lm. destruct L1 as [->|I]; [lia|]. apply in_map_iff in I as (q & Eq & Iq). unfold stepv in Eq. destruct (_ >=? a) eqn:Q; [|lia]. split; [lia|]. exists q. split; [exact Iq|]. apply reads_aval; [exact W|symmetry; exact Eq]. }
  assert (Iu : In p (se_points (noCenter se))) by (eapply rd_In; exact Rk).
  split.
  - intros (w & Nw & Lw). assert (Lm : m < bv) by (specialize (Hin w Nw); lia). specialize (Hlt Lm). unfold stepv. split.
    + intros (_ & Q). injection Q as Q. destruct (u >=? a) eqn:Ea; [|lia]. rewrite Q. split; [exact Hlt|exact Hin].
    + intros (M1 & M2). split; [exact Lk|]. destruct M1 as (La & _). replace (u >=? a) with true by lia. f_equal. specialize (M2 _ Hlt). assert (m <= u); [|lia]. apply Hin. split; [lia|]. exists p. split; [exact Iu|]. apply reads_aval; assumption.
  - intros NE. assert (m = bv) as ->. { destruct (Z_lt_le_dec m bv) as [L|L]; [|lia]. exfalso. apply NE. exists m. auto. }
    unfold stepv. split.
    + intros (_ & Q). injection Q as Q. destruct (u >=? a) eqn:Ea; [right; exact Q|left; lia].
    + intros Q. split; [exact Lk|]. f_equal. destruct (u >=? a) eqn:Ea; [|reflexivity]. destruct Q as [Q|Q]; [lia|exact Q].
Qed.
