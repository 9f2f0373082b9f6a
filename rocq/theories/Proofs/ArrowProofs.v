(** Arrow images: arrow and arrowMin. *)
From Coq Require Import String.
From Verif Require Export Spec.ArrowSpec Proofs.MorphFilters Proofs.NeighborFacts.

Lemma map3_ln f w a b c : map3 f (ln w a) (ln w b) (ln w c) = ln w (fun x => f (a x) (b x) (c x)).
Proof. unfold ln. induction (zseq w) as [|x l IH]; [reflexivity|]. cbn. rewrite IH. reflexivity. Qed.
Lemma map2_ln f w a b : map2 f (ln w a) (ln w b) = ln w (fun x => f (a x) (b x)).
Proof. apply lineFn_ln. Qed.

Lemma wrap_u t z : is_signed t = false -> wrap t z = z mod 2 ^ nbits t.
Proof. intros H. unfold wrap. rewrite H. reflexivity. Qed.
Lemma nbits_pos t : 0 < nbits t.
Proof. destruct t; reflexivity. Qed.
Lemma wrap_bit t z k : is_signed t = false -> Z.testbit (wrap t z) k = (k <? nbits t) && Z.testbit z k.
Proof.
  intros H. rewrite wrap_u by exact H. pose proof (nbits_pos t). destruct (Z_lt_le_dec k 0) as [N|P]; [rewrite !Z.testbit_neg_r by lia; destruct (k <? nbits t); reflexivity|].
  destruct (k <? nbits t) eqn:E; [apply Z.mod_pow2_bits_low; lia|apply Z.mod_pow2_bits_high; lia].
Qed.
Lemma wrap_range t z : is_signed t = false -> 0 <= wrap t z < 2 ^ nbits t.
Proof. intros H. rewrite wrap_u by exact H. apply Z.mod_pos_bound. apply Z.pow_pos_nonneg; [lia|destruct t; cbn; lia]. Qed.

(** ** One pixel *)
Fixpoint aacc (t2 : ity) (cmp : Z -> Z -> bool) (a : Z) (vals : list Z) (n acc : Z) : Z :=
  match vals with [] => acc | u :: vs => aacc t2 cmp a vs (n + 1) (arrow_or t2 cmp (wrap t2 (2 ^ n)) a u acc) end.

Lemma aacc_bits t2 cmp a : is_signed t2 = false -> forall vals n acc, 0 <= n -> 0 <= acc < 2 ^ nbits t2 ->
  0 <= aacc t2 cmp a vals n acc < 2 ^ nbits t2 /\
  forall k, 0 <= k -> Z.testbit (aacc t2 cmp a vals n acc) k = Z.testbit acc k || ((k <? nbits t2) && match rd vals (k - n) with Some u => cmp a u | None => false end).
Proof.
  intros Hu. induction vals as [|u vals IH]; intros n acc Hn Ha; cbn [aacc].
  - split; [exact Ha|]. intros k Hk. replace (rd [] (k - n)) with (@None Z); [rewrite andb_false_r, orb_false_r; reflexivity|]. symmetry. apply rd_out. cbn. lia.
  - unfold arrow_or. destruct (IH (n + 1) (wrap t2 (Z.lor acc (if cmp a u then wrap t2 (2 ^ n) else 0))) ltac:(lia) (wrap_range _ _ Hu)) as (R & B).
    split; [exact R|]. intros k Hk. rewrite B by exact Hk. rewrite wrap_bit by exact Hu. rewrite Z.lor_spec.
    assert (Hacc : Z.testbit acc k = true -> k <? nbits t2 = true).
    { intros T. destruct (k <? nbits t2) eqn:E; [reflexivity|]. rewrite Z.bits_above_log2 in T; [discriminate|lia|]. destruct (Z.eq_dec acc 0) as [->|]; [cbn; pose proof (nbits_pos t2); lia|].
      assert (Z.log2 acc < nbits t2) by (apply Z.log2_lt_pow2; lia). lia. }
    assert (Hb : Z.testbit (if cmp a u then wrap t2 (2 ^ n) else 0) k = (k =? n) && (k <? nbits t2) && cmp a u).
    { destruct (cmp a u); [|rewrite Z.testbit_0_l, andb_false_r; reflexivity]. rewrite wrap_bit, Z.pow2_bits_eqb by (assumption || lia). rewrite andb_true_r, (Z.eqb_sym n k), andb_comm. reflexivity. }
    rewrite Hb. destruct (Z.eq_dec k n) as [->|Nk].
    + rewrite Z.sub_diag. replace (rd (u :: vals) 0) with (Some u) by reflexivity. replace (rd vals (n - (n + 1))) with (@None Z) by (symmetry; apply rd_out; lia).
      rewrite Z.eqb_refl, andb_false_r, orb_false_r. cbn [andb]. destruct (Z.testbit acc n) eqn:T; [rewrite (Hacc eq_refl); reflexivity|]. cbn [orb]. destruct (n <? nbits t2), (cmp a u); reflexivity.
    + replace (k =? n) with false by lia. cbn [andb]. rewrite orb_false_r.
      assert (rd (u :: vals) (k - n) = rd vals (k - (n + 1))) as ->.
      { destruct (Z_lt_le_dec (k - n) 1) as [L|L]; [rewrite !rd_out by (cbn [length]; lia); reflexivity|]. unfold rd. replace (0 <=? k - n) with true by lia. replace (0 <=? k - (n + 1)) with true by lia.
        replace (Z.to_nat (k - n)) with (S (Z.to_nat (k - (n + 1)))) by lia. reflexivity. }
      destruct (Z.testbit acc k) eqn:T; [rewrite (Hacc eq_refl); reflexivity|]. cbn [andb orb]. rewrite andb_false_r. reflexivity.
Qed.

Section Arrows.
Variables (t2 : ity) (se : strelt) (bv : Z) (s : dims) (F : Z -> Z -> Z -> Z).
Hypothesis Hw : wf_dims s.
Hypothesis H0 : 0 < dw s < 2 ^ 63.
Hypothesis HN : near_points se s.

Definition aval (p : point) (x y z : Z) : Z := bo s bv F (ahead_x (se_odd se) x y p) (y + py_ p) (z + pz_ p).

Lemma ahead_bit x y p : ahead_x (se_odd se) x y p = x - (- px_ p - bit (se_odd se && oddb y && oddb (y + py_ p + 1))).
Proof. clear. unfold ahead_x. rewrite !oddb_odd, Z.odd_add. change (Z.odd 1) with true. rewrite Bool.xorb_true_r, Z.negb_odd. unfold bit. destruct (se_odd se && Z.odd y && Z.even (y + py_ p)); lia. Qed.

Lemma arrow_src_ok l k p : In p (se_points se) -> arrow_src se (mk_img s F) bv l k p = Some (ln (dw s) (fun x => aval p x l k)).
Proof using Hw H0 HN.
  intros Hp. destruct (HN p Hp) as (P1 & P2). unfold arrow_src, extract_translated_line. unfold height, depth, width. cbn [sz mk_img].
  destruct (_ || _) eqn:B.
  - rewrite borderBuf_ln. f_equal. apply ln_ext. intros x _. unfold aval. symmetry. apply bo_out. unfold inside. lia.
  - change (Img s (map _ (grid (dw s) (dh s) (dd s)))) with (mk_img s F).
    rewrite getLine_mk by (assumption || lia). cbn [option_bind]. rewrite shl_ln.
    + f_equal. apply ln_ext. intros x Hx. unfold aval, bo, insideb. rewrite ahead_bit. set (q := _ - bit _).
      repeat match goal with |- context [if ?c then _ else _] => destruct c eqn:? end; try reflexivity; lia.
    + lia.
    + destruct (se_odd se); unfold bit in *; repeat match goal with |- context [if ?c then _ else _] => destruct c eqn:? end; cbn in *; lia.
Qed.

Lemma arrow_points_ok cmp l k (g : Z -> Z) : forall pts n f0, (forall p, In p pts -> In p (se_points se)) -> n + Z.of_nat (length pts) <= 64 ->
  arrow_points t2 cmp se (mk_img s F) bv l k (ln (dw s) g) pts n (ln (dw s) f0) = Some (ln (dw s) (fun x => aacc t2 cmp (g x) (map (fun p => aval p x l k) pts) n (f0 x))).
Proof using Hw H0 HN.
  induction pts as [|p pts IH]; intros n f0 Hp Hn; [reflexivity|]. cbn [arrow_points map aacc length] in *. unfold arrow_bit. replace (n <? 64) with true by lia. cbn [option_bind].
  rewrite arrow_src_ok by (apply Hp; left; reflexivity). cbn [option_bind]. rewrite map3_ln. rewrite IH; [reflexivity|intros q Hq; apply Hp; right; exact Hq|lia].
Qed.

Lemma arrow_single_ok junk c cmp G : perm_sched (lineSched c) -> se_points se <> [] -> (length (se_points se) <= 64)%nat ->
  arrow_single t2 junk c cmp bv se false (mk_img s F) (mk_img s G) = Some (mk_img s (fun x y z => aacc t2 cmp (F x y z) (map (fun p => aval p x y z) (se_points se)) 0 0)).
Proof using Hw H0 HN.
  intros HS HE HL. unfold arrow_single. rewrite same_size_true by reflexivity. cbn [negb]. destruct (se_points se) as [|p0 ps] eqn:Ep; [contradiction|]. rewrite <- Ep. clear HE.
  unfold height, depth, width. cbn [sz mk_img]. change (Img s (map _ (grid (dw s) (dh s) (dd s)))) with (mk_img s F).
  rewrite (line_pass s _ _ G (fun x y z => aacc t2 cmp (F x y z) (map (fun p => aval p x y z) (se_points se)) 0 0)).
  - reflexivity.
  - apply HS.
  - intros F' y z Hy Hz _. rewrite getLine_mk by (assumption || lia). cbn [option_bind]. change (map (fun _ => 0) (zseq (dw s))) with (ln (dw s) (fun _ => 0)).
    rewrite arrow_points_ok; [|auto|rewrite Ep; cbn [length] in *; lia]. cbn [option_bind]. rewrite putLine_mk by (assumption || lia). reflexivity.
Qed.
End Arrows.

Lemma mk_pix im : wf_img im -> im = mk_img (sz im) (pxv im).
Proof. intros W. apply img_mk. exact W. Qed.

Lemma reads_bo im bv x y z u : wf_img im -> reads im bv x y z u <-> u = bo (sz im) bv (pxv im) x y z.
Proof. intros W. assert (Wd : wf_dims (sz im)) by apply W. transitivity (reads (mk_img (sz im) (pxv im)) bv x y z u); [rewrite <- (mk_pix im W); reflexivity|apply bo_reads; exact Wd]. Qed.

(** ** arrow *)
Lemma aacc_arrows t2 cmp (R : Z -> Z -> Prop) se bv im : (forall a u, cmp a u = true <-> R a u) -> is_signed t2 = false -> wf_img im ->
  let out := mk_img (sz im) (fun x y z => aacc t2 cmp (pxv im x y z) (map (fun p => aval se bv (sz im) (pxv im) p x y z) (se_points se)) 0 0) in
  arrows_of t2 R se bv im out /\ no_other_bits se out.
Proof.
  intros HR Hu W out. assert (Wd : wf_dims (sz im)) by apply W.
  assert (Hv : forall x y z v, pixel_is out x y z v -> v = aacc t2 cmp (pxv im x y z) (map (fun p => aval se bv (sz im) (pxv im) p x y z) (se_points se)) 0 0).
  { intros x y z v P. apply mk_img_is in P; [|exact Wd]. apply P. }
  split; [split; [reflexivity|]; split; [apply mk_img_wf; exact Wd|]|].
  - intros x y z a v Pa Pv. rewrite (Hv _ _ _ _ Pv). assert (Ea : pxv im x y z = a) by (apply pxv_is; exact Pa). rewrite Ea.
    destruct (aacc_bits t2 cmp a Hu (map (fun p => aval se bv (sz im) (pxv im) p x y z) (se_points se)) 0 0 ltac:(lia)) as (Rg & B); [pose proof (nbits_pos t2); split; [lia|apply Z.pow_pos_nonneg; lia]|].
    split; [exact Rg|]. intros k p Rk Lk. rewrite B by (apply rd_Some_range in Rk; lia). rewrite Z.testbit_0_l. cbn [orb]. replace (k <? nbits t2) with true by lia. cbn [andb]. rewrite Z.sub_0_r, rd_map, Rk. cbn [option_map].
    assert (Q : forall u, reads_ahead se im bv x y z p u <-> u = aval se bv (sz im) (pxv im) p x y z).
    { intros u. apply reads_bo. exact W. }
    rewrite HR. split; [intros H; eexists; split; [apply Q; reflexivity|exact H]|intros (u & U & H); apply Q in U as ->; exact H].
  - intros x y z v k Pv Lk. rewrite (Hv _ _ _ _ Pv).
    destruct (aacc_bits t2 cmp (pxv im x y z) Hu (map (fun p => aval se bv (sz im) (pxv im) p x y z) (se_points se)) 0 0 ltac:(lia)) as (Rg & B); [pose proof (nbits_pos t2); split; [lia|apply Z.pow_pos_nonneg; lia]|].
    rewrite B by lia. rewrite Z.testbit_0_l, rd_out by (rewrite map_length; lia). rewrite andb_false_r. reflexivity.
Qed.

Lemma arrow_run t2 junk c cmp (R : Z -> Z -> Prop) bv se im out : (forall a u, cmp a u = true <-> R a u) -> arrow_ok t2 se c im out ->
  exists res, arrow_single t2 junk c cmp bv se false im out = Some res /\ arrows_of t2 R se bv im res /\ no_other_bits se res.
Proof.
  intros HR (Hu & G & Wo & So & HL & HN & HE & Hn). pose proof G as (W & N & B).
  eexists. split; [|apply (aacc_arrows t2 cmp R se bv im HR Hu W)].
  pose proof (arrow_single_ok t2 se bv (sz im) (pxv im) ltac:(apply W) ltac:(clear - N B; unfold nonempty in N; lia) HN junk c cmp (pxv out) ltac:(apply HL) HE Hn) as E.
  rewrite <- (mk_pix im W) in E. rewrite <- So in E at 1. rewrite <- (mk_pix out Wo) in E. exact E.
Qed.

Lemma cmp_says op : operation op -> exists cmp, arrow_cmp op = Some cmp /\ forall a u, cmp a u = true <-> says op a u.
Proof.
  unfold operation, says. intros [-> | [-> | [-> | [-> | ->]]]]; eexists; (split; [reflexivity|]); intros a u; cbv beta; (split; intros H;
  [|repeat match type of H with _ \/ _ => destruct H as [H|H] end; destruct H as (E & H); try discriminate; lia]); intuition (auto; lia).
Qed.
