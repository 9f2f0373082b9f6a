From Verif Require Export Proofs.GranProofs.
From Verif Require Import Proofs.MeasureProofs Proofs.HitOrMissProofs.
Local Open Scope Z_scope.

Lemma telescope l : forall (f : Z -> Z) i, (forall j, 0 <= j < Z.of_nat (length l) -> rd l j = Some (f (i + j) - f (i + j + 1))) -> Zsum l = f i - f (i + Z.of_nat (length l)).
Proof.
  induction l as [|v l IH]; intros f i H; [cbn; rewrite Z.add_0_r; lia|]. rewrite Zsum_cons. rewrite (IH f (i + 1)).
  - pose proof (H 0 ltac:(cbn [length]; lia)) as H0. change (rd (v :: l) 0) with (Some v) in H0. injection H0 as H0. rewrite Z.add_0_r in H0.
    replace (i + 1 + Z.of_nat (length l)) with (i + Z.of_nat (length (v :: l))) by (cbn [length]; lia). lia.
  - intros j Hj. specialize (H (j + 1) ltac:(cbn [length]; lia)). change (v :: l) with ([v] ++ l) in H. rewrite rd_app in H. cbn [length] in H.
    replace (j + 1 <? Z.of_nat 1) with false in H by lia. replace (j + 1 - Z.of_nat 1) with j in H by lia. rewrite H. f_equal. f_equal; f_equal; lia.
Qed.

Lemma fold_left_Zsum l : forall a, fold_left Z.add l a = a + Zsum l.
Proof. induction l as [|v l IH]; intros a; [cbn; lia|]. cbn [fold_left]. rewrite IH, Zsum_cons. lia. Qed.

Lemma running_length a l : forall acc, length (running a acc l) = length l.
Proof. induction l as [|v l IH]; intros acc; [reflexivity|]. cbn. rewrite IH. reflexivity. Qed.

Lemma running_rd a l : a <> 0 -> forall (f : Z -> Z) i acc, (forall j, 0 <= j < Z.of_nat (length l) -> rd l j = Some (f (i + j) - f (i + j + 1))) ->
  forall k, 0 <= k < Z.of_nat (length l) -> exists q, rd (running a acc l) k = Some q /\ (q == acc + inject_Z (f i - f (i + k + 1)%Z) / inject_Z a)%Q.
Proof.
  intros Na. assert (~ (inject_Z a == 0)%Q) as Nq by (unfold Qeq; cbn; lia). induction l as [|v l IH]; intros f i acc H k Hk; [cbn in Hk; lia|].
  pose proof (H 0 ltac:(cbn [length]; lia)) as H0. change (rd (v :: l) 0) with (Some v) in H0. injection H0 as ->. rewrite Z.add_0_r in *. cbn [running].
  destruct (Z.eq_dec k 0) as [->|Nk].
  - eexists. split; [reflexivity|]. rewrite Z.add_0_r. field. exact Nq.
  - destruct (IH f (i + 1) (inject_Z (f i - f (i + 1)%Z) / inject_Z a + acc)%Q) with (k := k - 1) as (q & E & Hq).
    + intros j Hj. specialize (H (j + 1) ltac:(cbn [length]; lia)). change (?x :: l) with ([x] ++ l) in H. rewrite rd_app in H. cbn [length] in H.
      replace (j + 1 <? Z.of_nat 1) with false in H by lia. replace (j + 1 - Z.of_nat 1) with j in H by lia. rewrite H. f_equal. f_equal; f_equal; lia.
    + cbn [length] in Hk. lia.
    + exists q. split.
      * change (?x :: ?r) with ([x] ++ r) at 1. rewrite rd_app. cbn [length]. replace (k <? Z.of_nat 1) with false by lia. replace (k - Z.of_nat 1) with (k - 1) by lia. exact E.
      * rewrite Hq. replace (i + 1 + (k - 1) + 1) with (i + k + 1) by lia.
        replace (f i - f (i + k + 1)) with ((f i - f (i + 1)) + (f (i + 1) - f (i + k + 1))) by lia. rewrite (inject_Z_plus (f i - f (i + 1))). field. exact Nq.
Qed.

(** ** Constant images *)
Section Const.
Context (t : ity) (s : dims) (se : strelt) (HN : se_points se <> []) (HP : planar se s) (c : Z) (Hc : inty t c).
Local Notation K := (fun _ _ _ : Z => c).
Lemma const_typed : typedf t s K.
Proof. intros x y z _. exact Hc. Qed.
Lemma dl_const n : leq s (dl t s se n K) K.
Proof.
  induction n as [|n IH]; [apply leq_refl|]. change (dl t s se (S n) K) with (can1 px_sup (tmin t) s se (dl t s se n K)).
  apply (d_le_iff t s se HN); [exact const_typed|]. intros x y z x' y' z' Hi Hi' _. apply (IH x' y' z' Hi').
Qed.
Lemma er_const n F : typedf t s F -> leq s K F -> leq s K (er t s se n F).
Proof.
  intros TF H. apply (adjn t s se HN HP n K F const_typed TF). eapply leq_trans; [apply dl_const|exact H].
Qed.
Lemma dl_up n F : centred se -> typedf t s F -> leq s F (dl t s se n F).
Proof.
  intros HC TF. induction n as [|n IH]; [apply leq_refl|]. eapply leq_trans; [exact IH|]. set (G := dl t s se n F).
  change (dl t s se (S n) F) with (can1 px_sup (tmin t) s se G).
  assert (typedf t s G) as TG by (apply dl_typed; assumption).
  pose proof (proj1 (d_le_iff t s se HN G (can1 px_sup (tmin t) s se G) (d_typed t s se HN G TG)) (leq_refl _ _)) as H.
  intros x y z Hi. apply (H x y z x y z Hi Hi). exists (0, 0, 0). split; [exact HC|]. unfold src_x. cbn. rewrite !Z.sub_0_r.
  destruct (se_odd se); cbn; [|lia]. rewrite <- Z.negb_even. destruct (Z.even y), (Z.even z); cbn; lia.
Qed.
End Const.

Section Call.
Context (t : ity) (junk : Z -> Z) (cs : nat -> nat -> nat -> conf) (se : strelt) (im : img) (HC : gran_ok t cs se im).
Context (step maxSe : Z) (Hst : 0 <= step).
Local Notation s := (sz im).
Local Notation f k := (vlm s (opnk t se s step (pxv im) k)).

Lemma im_typed : typedf t s (pxv im).
Proof. destruct HC as ((W & _) & T & _). apply typed_px; auto. Qed.

Lemma min_exists : exists m, minVal t false im = Some m /\ minimum_is im m /\ inty t m.
Proof.
  destruct HC as (GI & T & _). destruct (good_nonempty im GI) as (A & B & C & D & _). destruct (minVal_ok t false im) as (m & E & I & L).
  - apply GI.
  - exact T.
  - rewrite considered_all. destruct (pixel_exists im 0 0 0) as (v & Hv); [apply GI|repeat split; lia|]. intros N. destruct Hv as (_ & Hv). apply rd_In in Hv. rewrite N in Hv. destruct Hv.
  - exists m. split; [exact E|]. split; [split; [exact I|exact L]|]. unfold typed_img in T. rewrite Forall_forall in T. apply T. exact I.
Qed.

Lemma min_fun m m' : minimum_is im m -> minimum_is im m' -> m = m'.
Proof. intros (A & B) (A' & B'). specialize (B m' A'). specialize (B' m A). lia. Qed.

Lemma gran_unfold fuel CDF m : minVal t false im = Some m ->
  measGranulometry fuel t junk cs se step CDF maxSe im =
  match gran_loop fuel t junk cs se step maxSe m 0 (mk_img s (erk t se s step (pxv im) (Z.of_nat 0))) (new_img junk im) ((Z.of_nat 0 + 1) * step) (f (Z.of_nat 0)) [] with
  | None => None
  | Some None => Some None
  | Some (Some res) => Some (Some (if CDF then gran_cdf res else map (fun v => Some (inject_Z v)) res))
  end.
Proof.
  intros E. destruct HC as (GI & T & _ & V & _). unfold measGranulometry. rewrite (typed_volume t im (proj1 GI) T V). cbn [option_bind]. rewrite E. cbn [option_bind].
  change (erk t se s step (pxv im) (Z.of_nat 0)) with (pxv im). change (opnk t se s step (pxv im) (Z.of_nat 0)) with (pxv im). unfold vlm. rewrite <- (img_mk im (proj1 GI)).
  replace ((Z.of_nat 0 + 1) * step) with step by lia. destruct (gran_loop _ _ _ _ _ _ _ _ _ _ _ _ _ _) as [[res|]|]; reflexivity.
Qed.

Lemma gran_list fuel CDF m out : minVal t false im = Some m -> measGranulometry fuel t junk cs se step CDF maxSe im = Some (Some out) -> step * Z.of_nat (length out) < 2 ^ 32 ->
  exists l, out = (if CDF then gran_cdf l else map (fun v => Some (inject_Z v)) l) /\ l <> [] /\ length out = length l /\
    (forall j, 0 <= j < Z.of_nat (length l) -> rd l j = Some (f (0 + j) - f (0 + j + 1))) /\
    (maxSe = 0 -> leq s (erk t se s step (pxv im) (Z.of_nat (length l))) (fun _ _ _ => m)).
Proof.
  intros Em. rewrite (gran_unfold fuel CDF m Em). intros E HB. destruct HC as (GI & T & HG & V & L). destruct (good_nonempty im GI) as (A & B & C & D & W).
  destruct (gran_loop _ _ _ _ _ _ _ _ _ _ _ _ _ _) as [[l|]|] eqn:EL; try discriminate. injection E as <-.
  assert (length (if CDF then gran_cdf l else map (fun v => Some (inject_Z v)) l) = length l) as EQ.
  { destruct CDF; [|apply map_length]. unfold gran_cdf. destruct (_ =? 0); rewrite map_length; [reflexivity|apply running_length]. }
  apply (gran_value t junk cs se s A B C D W HG L V step maxSe m Hst (pxv im) im_typed) in EL; [|apply wf_junk; apply GI|reflexivity|reflexivity|rewrite <- EQ; exact HB].
  destruct EL as (new & -> & Nn & Hv & Hend). cbn [app] in *. exists new. repeat (split; [auto|]). exact Hend.
Qed.

Lemma conf0 : forall k, legal_conf (dh s) (cs 0%nat 0%nat k).
Proof. intros k. apply HC. Qed.

Lemma opnk_opening k : opening t se (Z.to_nat (k * step)) im (mk_img s (opnk t se s step (pxv im) k)).
Proof.
  destruct HC as (GI & T & HG & V & L). destruct (good_nonempty im GI) as (A & B & C & D & W). rewrite (img_mk im (proj1 GI)) at 1.
  apply (opn_opening t junk se s A B C D W HG _ _ (cs 0%nat 0%nat)). intros. apply L.
Qed.

Lemma f_decr j k : 0 <= j <= k -> f k <= f j.
Proof.
  intros H. destruct HC as (GI & T & HG & V & L). unfold vlm, mk_img. cbn [pixs]. apply Zsum_map_le. intros [[x y] z] Hi. apply grid_In in Hi. unfold opnk.
  apply (opn_decr t s se (gse_ne _ _ HG) (gse_pl _ _ HG)); [nia|exact im_typed|exact Hi].
Qed.

Lemma total_f k : total (mk_img s (opnk t se s step (pxv im) k)) = f k.
Proof. reflexivity. Qed.
Lemma total_im : total im = f 0.
Proof. destruct HC as (GI & _). unfold total, vlm. change (opnk t se s step (pxv im) 0) with (pxv im). rewrite <- (img_mk im (proj1 GI)). reflexivity. Qed.

Theorem gran_differences fuel res : measGranulometry fuel t junk cs se step false maxSe im = Some (Some res) -> step * Z.of_nat (length res) < 2 ^ 32 ->
  res <> [] /\ differences t se step im res.
Proof.
  intros E HB. destruct min_exists as (m & Em & _ & _). destruct (gran_list fuel false m res Em E HB) as (l & -> & Nl & _ & Hv & _). rewrite map_length in *.
  split; [destruct l; [congruence|discriminate]|]. intros k Hk. rewrite map_length in Hk. eexists _, _. split; [apply opnk_opening|]. split; [apply opnk_opening|].
  rewrite !total_f. split; [rewrite rd_map, Hv by exact Hk; cbn; reflexivity|]. pose proof (f_decr k (k + 1) ltac:(lia)). lia.
Qed.

(** Without a limit, the last opening is constant. *)
Lemma f_end l m : minimum_is im m -> inty t m -> centred se -> leq s (erk t se s step (pxv im) l) (fun _ _ _ => m) -> f l = dw s * dh s * dd s * m.
Proof.
  intros (Im & Lm) Tm Hce HE. destruct HC as (GI & T & HG & V & L). pose proof (gse_ne _ _ HG) as NE. pose proof (gse_pl _ _ HG) as PL.
  assert (leq s (fun _ _ _ => m) (erk t se s step (pxv im) l)) as HE'.
  { apply er_const; auto using im_typed. intros x y z Hi. destruct (pixel_exists im x y z (proj1 GI) Hi) as (v & Hv). rewrite (pxv_is _ _ _ _ _ Hv). apply Lm. eapply rd_In. apply Hv. }
  assert (forall x y z, inside s x y z -> opnk t se s step (pxv im) l x y z = m) as HO.
  { intros x y z Hi. unfold opnk, opn. transitivity (dl t s se (Z.to_nat (l * step)) (fun _ _ _ => m) x y z).
    - apply cann_ext; [|exact Hi]. intros x1 y1 z1 H1. pose proof (HE x1 y1 z1 H1). pose proof (HE' x1 y1 z1 H1). cbn beta in *. unfold erk in *. lia.
    - apply Z.le_antisymm; [apply (dl_const t s se NE m Tm _ x y z Hi)|]. apply (dl_up t s se NE _ (fun _ _ _ => m) Hce (const_typed t s m Tm) x y z Hi). }
  unfold vlm. rewrite (mk_img_ext s _ (fun _ _ _ => m) HO). unfold mk_img. cbn [pixs].
  assert (Zsum (map (fun '(_, _, _) => m) (grid (dw s) (dh s) (dd s))) = m * Z.of_nat (length (grid (dw s) (dh s) (dd s)))) as ->.
  { induction (grid (dw s) (dh s) (dd s)) as [|[[a b] c] g IH]; [cbn; lia|]. cbn [map length]. rewrite Zsum_cons, IH. lia. }
  assert (Z.of_nat (length (grid (dw s) (dh s) (dd s))) = dw s * dh s * dd s) as ->; [|lia].
  pose proof (mk_img_wf s (fun _ _ _ => 0) (proj1 (proj1 GI))) as (Wd & Wl). unfold mk_img in Wl. cbn [pixs sz] in Wl. rewrite map_length in Wl. lia.
Qed.

Theorem gran_sum fuel res m : maxSe = 0 -> centred se -> minimum_is im m ->
  measGranulometry fuel t junk cs se step false maxSe im = Some (Some res) -> step * Z.of_nat (length res) < 2 ^ 32 ->
  exists l, res = map (fun v => Some (inject_Z v)) l /\ Zsum l = total im - dw s * dh s * dd s * m.
Proof.
  intros H0 Hce Hm E HB. destruct min_exists as (m' & Em & Hm' & Tm). rewrite (min_fun m m' Hm Hm') in *. destruct (gran_list fuel false m' res Em E HB) as (l & -> & Nl & _ & Hv & Hend).
  exists l. split; [reflexivity|]. rewrite (telescope l (fun k => f k) 0 Hv). rewrite total_im. rewrite Z.add_0_l. rewrite (f_end _ m' Hm' Tm Hce (Hend H0)). reflexivity.
Qed.

Theorem gran_cumulated fuel res m : maxSe = 0 -> centred se -> minimum_is im m -> (exists v, In v (pixs im) /\ v <> m) ->
  measGranulometry fuel t junk cs se step true maxSe im = Some (Some res) -> step * Z.of_nat (length res) < 2 ^ 32 ->
  res <> [] /\ cumulated t se step m im res.
Proof.
  intros H0 Hce Hm Hv0 E HB. destruct min_exists as (m' & Em & Hm' & Tm). rewrite (min_fun m m' Hm Hm') in *. clear m Hm. destruct (gran_list fuel true m' res Em E HB) as (l & -> & Nl & EQ & Hv & Hend).
  pose proof (f_end _ m' Hm' Tm Hce (Hend H0)) as Fe. set (a := f 0 - dw s * dh s * dd s * m').
  assert (Zsum l = a) as Sa. { rewrite (telescope l (fun k => f k) 0 Hv). rewrite Z.add_0_l. unfold a. rewrite Fe. reflexivity. }
  assert (0 < a) as Pa.
  { unfold a. rewrite <- Fe. destruct HC as (GI & T & HG & V & L). pose proof (f_decr 0 (Z.of_nat (length l)) ltac:(lia)) as M. enough (f 0 <> f (Z.of_nat (length l))) by lia. intros Eq.
    rewrite Fe in Eq. unfold vlm in Eq. change (opnk t se s step (pxv im) 0) with (pxv im) in Eq. rewrite <- (img_mk im (proj1 GI)) in Eq.
    destruct Hv0 as (v & Iv & Nv). destruct Hm' as (_ & Lm).
    assert (0 < Zsum (map (fun v => v - m') (pixs im))) as Hp.
    { clear - Iv Nv Lm. revert Lm. induction (pixs im) as [|w r IH]; intros Lm; [destruct Iv|]. cbn [map]. rewrite Zsum_cons.
      assert (0 <= Zsum (map (fun v => v - m') r)) as Hr by (apply Zsum_nonneg; apply Forall_forall; intros u Hu; apply in_map_iff in Hu as (u' & <- & Hu); specialize (Lm u' (or_intror Hu)); lia).
      pose proof (Lm w (or_introl eq_refl)). destruct Iv as [->|Iv]; [lia|]. specialize (IH Iv (fun u Hu => Lm u (or_intror Hu))). lia. }
    rewrite Zsum_shift in Hp. destruct GI as ((Wd & Wl) & _). lia. }
  assert (~ (inject_Z a == 0)%Q) as Nq by (unfold Qeq; cbn; lia).
  split. { intros C. rewrite C in EQ. destruct l; [congruence|discriminate]. }
  assert (forall k, 0 <= k < Z.of_nat (length l) -> exists q, rd (gran_cdf l) k = Some (Some q) /\ (q == inject_Z (f 0%Z - f (k + 1)%Z) / inject_Z a)%Q) as Hq.
  { intros k Hk. destruct (running_rd a l ltac:(lia) (fun k => f k) 0 0%Q Hv k Hk) as (q & Eq & Qq). exists q. split.
    - unfold gran_cdf. rewrite fold_left_Zsum. rewrite Z.add_0_l, Sa. replace (a =? 0) with false by lia. rewrite rd_map, Eq. reflexivity.
    - rewrite Qq. rewrite Z.add_0_l. ring. }
  intros k Hk. rewrite EQ in *. destruct (Hq k Hk) as (q & Eq & Qq). eexists _, q. split; [apply opnk_opening|]. split; [exact Eq|].
  rewrite total_f, total_im. fold a.
  assert (0 < inject_Z a)%Q as Pq by (unfold Qlt; cbn; lia).
  split; [exact Qq|]. pose proof (f_decr 0 (k + 1) ltac:(lia)) as M1. pose proof (f_decr (k + 1) (Z.of_nat (length l)) ltac:(lia)) as M2.
  split; [|split].
  - rewrite Qq. split.
    + apply Qle_shift_div_l; [exact Pq|]. rewrite Qmult_0_l. change 0%Q with (inject_Z 0). rewrite <- Zle_Qle. lia.
    + apply Qle_shift_div_r; [exact Pq|]. rewrite Qmult_1_l. rewrite <- Zle_Qle. unfold a. lia.
  - intros q' Eq'. assert (k + 1 < Z.of_nat (length l)) as Hk'. { rewrite <- EQ. apply rd_Some_range in Eq'. lia. }
    destruct (Hq (k + 1) ltac:(lia)) as (q2 & Eq2 & Qq2). rewrite Eq2 in Eq'. injection Eq' as <-. rewrite Qq, Qq2.
    apply Qmult_le_compat_r; [|apply Qlt_le_weak; apply Qinv_lt_0_compat; exact Pq]. rewrite <- Zle_Qle. pose proof (f_decr (k + 1) (k + 1 + 1) ltac:(lia)). lia.
  - intros El. rewrite Qq, El, Fe. unfold a. field. exact Nq.
Qed.

(** Constant images. *)
Theorem gran_constant fuel res m : maxSe = 0 -> centred se -> (forall v, In v (pixs im) -> v = m) ->
  measGranulometry fuel t junk cs se step true maxSe im = Some (Some res) -> step * Z.of_nat (length res) < 2 ^ 32 -> res <> [] /\ forall q, In q res -> q = None.
Proof.
  intros H0 Hce Hc E HB. destruct min_exists as (m' & Em & Hm' & Tm). destruct (gran_list fuel true m' res Em E HB) as (l & -> & Nl & EQ & Hv & Hend).
  assert (m = m') as -> by (symmetry; apply Hc; apply Hm').
  assert (Zsum l = 0) as S0.
  { rewrite (telescope l (fun k => f k) 0 Hv). rewrite Z.add_0_l. rewrite (f_end _ m' Hm' Tm Hce (Hend H0)). rewrite <- total_im. unfold total. destruct HC as (((Wd & Wl) & _) & _).
    assert (Zsum (pixs im) = m' * Z.of_nat (length (pixs im))) as ->; [|lia].
    clear - Hc. induction (pixs im) as [|w r IH]; [cbn; lia|]. rewrite Zsum_cons. rewrite (Hc w (or_introl eq_refl)), IH by (intros; apply Hc; right; assumption). cbn [length]. lia. }
  unfold gran_cdf. rewrite fold_left_Zsum, Z.add_0_l, S0. cbn [Z.eqb]. split; [destruct l; [congruence|discriminate]|]. intros q Hq. apply in_map_iff in Hq as (? & <- & _). reflexivity.
Qed.

Theorem gran_stops fuel CDF m K c al out r D : minimum_is im m -> (K < fuel)%nat -> (Z.of_nat K + 1) * step < 2 ^ 32 ->
  call_ok c al im out -> erode junk c (tmax t) (with_size se ((Z.of_nat K + 1) * step)) al im out = Some (r, D) -> (forall x y z v, pixel_is D x y z v -> v <= m) ->
  exists res, measGranulometry fuel t junk cs se step CDF maxSe im = Some (Some res) /\ (length res <= K + 1)%nat.
Proof.
  intros Hm HK HB HO HE HD. destruct min_exists as (m' & Em & Hm' & Tm). rewrite (min_fun m m' Hm Hm') in *. rewrite (gran_unfold fuel CDF m' Em).
  destruct HC as (GI & T & HG & V & L). destruct (good_nonempty im GI) as (A & B & C & DD & W).
  apply erode_val in HE; [|exact HO|apply good_sized; [exact HG|nia]]. injection HE as -> ->.
  destruct (gran_ends t junk cs se s A B C DD W HG L V step maxSe m' Hst (pxv im) im_typed fuel 0%nat K (new_img junk im) [] (f (Z.of_nat 0))) as (l & -> & Hl);
    [apply wf_junk; apply GI|reflexivity|reflexivity|lia|lia|exact HB| |].
  - intros x y z Hi. apply (HD x y z). apply mk_img_is; [exact A|]. split; [exact Hi|]. reflexivity.
  - eexists. split; [reflexivity|]. destruct CDF; [|rewrite map_length; exact Hl]. unfold gran_cdf. destruct (_ =? 0); rewrite map_length; [exact Hl|rewrite running_length; exact Hl].
Qed.

Theorem gran_runs_on fuel CDF c al out r D : maxSe = 0 -> (exists u v, In u (pixs im) /\ In v (pixs im) /\ u <> v) ->
  call_ok c al im out -> erode junk c (tmax t) (with_size se step) al im out = Some (r, D) -> pixs D = pixs im ->
  measGranulometry fuel t junk cs se step CDF maxSe im = Some None.
Proof.
  intros H0 Hex HO HE HD. destruct min_exists as (m & Em & Hm & Tm). rewrite (gran_unfold fuel CDF m Em).
  destruct HC as (GI & T & HG & V & L). destruct (good_nonempty im GI) as (A & B & C & DD & W).
  apply erode_val in HE; [|exact HO|apply good_sized; assumption]. injection HE as -> ->. cbn [sz mk_img] in HD.
  rewrite (gran_forever t junk cs se s A B C DD W HG L V step maxSe m Hst fuel); [reflexivity|exact H0|exact im_typed|apply wf_junk; apply GI|reflexivity|lia| |].
  - intros x y z Hi. change (erk t se s step (pxv im) (Z.of_nat 0)) with (pxv im).
    assert (mk_img s (er t s se (Z.to_nat step) (pxv im)) = im) as EI.
    { transitivity (Img s (pixs im)); [rewrite <- HD; reflexivity|]. destruct im; reflexivity. }
    rewrite <- (pxv_mk s (er t s se (Z.to_nat step) (pxv im)) x y z A Hi). rewrite EI. reflexivity.
  - change (erk t se s step (pxv im) (Z.of_nat 0)) with (pxv im). destruct Hex as (u & v & Iu & Iv & Nuv). destruct Hm as (_ & Lm).
    assert (exists w, In w (pixs im) /\ m < w) as (w & Iw & Lw). { pose proof (Lm u Iu). pose proof (Lm v Iv). destruct (Z.eq_dec u m); [exists v|exists u]; split; auto; lia. }
    rewrite (img_mk im (proj1 GI)) in Iw. apply mk_In in Iw as (x & y & z & Hi & E). exists x, y, z. split; [exact Hi|lia].
Qed.
End Call.
