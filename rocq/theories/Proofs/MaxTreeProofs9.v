(** The max-tree: attributeOpen on offsets. *)
From Verif Require Export Proofs.MaxTreeProofs8.

Local Notation "l # i" := (znth 0 l i) (at level 9).

Lemma nodup_flat_map {A B} (g : A -> list B) l : NoDup l -> (forall x, In x l -> NoDup (g x)) -> (forall x y b, In x l -> In y l -> In b (g x) -> In b (g y) -> x = y) -> NoDup (flat_map g l).
Proof.
  intros ND H1 H2. induction l as [|a l IH]; [constructor|]. cbn. apply NoDup_cons_iff in ND as (Na & ND).
  assert (NoDup (flat_map g l)) as N2. { apply IH; [exact ND|intros x Hx; apply H1; right; exact Hx|]. intros x y b Hx Hy. apply H2; right; assumption. }
  assert (NoDup (g a)) as N1 by (apply H1; left; reflexivity).
  assert (forall b, In b (g a) -> ~ In b (flat_map g l)) as D.
  { intros b Hb Hi. apply in_flat_map in Hi as (y & Hy & Hi). apply Na. rewrite (H2 a y b (or_introl eq_refl) (or_intror Hy) Hb Hi). exact Hy. }
  clear - N1 N2 D. induction (g a) as [|x lc IH]; [exact N2|]. cbn [app]. apply NoDup_cons_iff in N1 as (Nx & N1). constructor.
  - intros Hi. apply in_app_iff in Hi as [Hi|Hi]; [contradiction|]. apply (D x (or_introl eq_refl) Hi).
  - apply IH; [exact N1|]. intros y Hy. apply D. right; exact Hy.
Qed.

Section opening.
Variables (t : ity) (se : strelt) (s : dims) (px : list Z) (k : ckind) (stop : Z).
Hypothesis Ht : t = UINT8 \/ t = UINT16.
Local Notation N := (dw s * dh s * dd s).
Hypothesis Hty : forall p, 0 <= p < N -> 0 <= px # p <= tmax t.
Hypothesis Hlen : Z.of_nat (length px) = N.
Hypothesis Hs : int_sized s.
Hypothesis Hpt : int_points se.
Hypothesis HP : planar se s.
Hypothesis Hsy : symmetric_se se.
Hypothesis HN : 0 < N < MAX_NODES.
Local Notation adj := (covers se s).
Local Notation lk := (lk px N adj).

(** The pixels below a node. *)
Section below_node.
Variables (mv : Z) (eti : list Z) (tr : mtree) (par : Z -> Z) (kids own : Z -> list Z).
Hypothesis T : tree_of t se s px k mv eti tr par kids own.
Local Notation lev := (znth 0 (mt_level tr)).

Lemma tree_root m : node tr m -> anc par 1 m.
Proof using T.
  intros Hm. remember (Z.to_nat (lev m - mv)) as d eqn:Ed. revert m Hm Ed. induction d as [d IH] using lt_wf_ind. intros m Hm Ed.
  destruct (Z.eq_dec m 1) as [-> |N1]; [apply anc_self|]. apply anc_up; [exact N1|].
  destruct (t_par _ _ _ _ _ _ _ _ _ _ _ T m Hm N1) as (Pp & L). destruct (t_top _ _ _ _ _ _ _ _ _ _ _ T m Hm) as (_ & [?|Lm]); [contradiction|].
  apply (IH (Z.to_nat (lev (par m) - mv))); [clear - L Lm Ed; lia|exact Pp|reflexivity].
Qed.

Lemma zone_below h x p q : node tr x -> x <> 1 -> 0 <= p < N -> 0 <= q < N -> lev (par x) < h <= lev x -> anc par x (eti # p) -> (anc par x (eti # q) <-> lk h p q).
Proof using T HP Hsy.
  intros Px N1 Rp Rq Hh Hp. split.
  - intros Hq. apply (lk_mono px N adj (lev x)); [apply Hh|]. apply (t_conn _ _ _ _ _ _ _ _ _ _ _ T); assumption.
  - intros H. clear Rq. induction H as [|q r H IH A B]; [exact Hp|].
    pose proof (adj_rng' se s _ _ A) as Rq. pose proof (adj_rng' se s _ _ (adj_sym' se s HP Hsy _ _ A)) as Rr.
    destruct (t_eti _ _ _ _ _ _ _ _ _ _ _ T q Rq) as (Nq & Lq). destruct (t_eti _ _ _ _ _ _ _ _ _ _ _ T r Rr) as (Nr & Lr).
    destruct (Z_le_dec (px # r) (px # q)) as [Q|Q].
    + pose proof (t_edge _ _ _ _ _ _ _ _ _ _ _ T q r A Q) as E. destruct (anc_total par _ _ _ IH E) as [F|F]; [exact F|].
      apply anc_cases in F as [F|(_ & F)]; [rewrite F; apply anc_self|]. exfalso.
      destruct (t_par _ _ _ _ _ _ _ _ _ _ _ T x Px N1) as (Pp & _).
      destruct (anc_level (node tr) par lev (t_par _ _ _ _ _ _ _ _ _ _ _ T) _ _ F Pp) as [G|G]; [rewrite <- G in Hh|]; clear - G Hh B Lr || clear - Hh B Lr; lia.
    + eapply anc_trans; [exact IH|]. apply (t_edge _ _ _ _ _ _ _ _ _ _ _ T); [apply (adj_sym' se s HP Hsy); exact A|clear - Q; lia].
Qed.

(** The criterion of a node after updateCriteria. *)
Lemma node_value cr fx x p : (forall y, node tr y -> y <> 1 -> znth (0, 0) cr y = znth (0, 0) (mt_crit tr) y) ->
  node tr x -> x <> 1 -> frep tr kids (kids x) fx -> 0 <= p < N -> anc par x (eti # p) ->
  (stop <= c_value k (ftot k cr fx (znth (0, 0) cr x)) <-> set_has s k stop (fun q => 0 <= q < N /\ anc par x (eti # q))).
Proof using T Hs.
  intros Hcr Px N1 Hf Rp Hp.
  pose proof (t_par _ _ _ _ _ _ _ _ _ _ _ T) as Tpar. pose proof (t_kids _ _ _ _ _ _ _ _ _ _ _ T) as Tkids.
  destruct (kids_labels tr par kids Tpar Tkids x fx Px Hf) as (ND & Nx & KL).
  assert (forall y, node tr y -> y <> 1 -> znth (0, 0) cr y = crit_of (co s) k (own y)) as C by (intros y Py Ny; rewrite Hcr by assumption; apply (t_crit _ _ _ _ _ _ _ _ _ _ _ T); assumption).
  rewrite (C x Px N1).
  rewrite (ftot_own s k cr own fx) by (intros y Hy; destruct (labels_node tr par kids Tpar Tkids _ _ y Hf Hy); apply C; assumption).
  change (own x ++ flat_map own (labels fx)) with (flat_map own (x :: labels fx)).
  assert (I : forall q, In q (flat_map own (x :: labels fx)) <-> 0 <= q < N /\ anc par x (eti # q)).
  { intros q. rewrite in_flat_map. split.
    - intros (y & Hy & Hq). assert (node tr y /\ anc par x y) as (Py & Ha). { destruct Hy as [<- |Hy]; [split; [exact Px|apply anc_self]|]. apply KL in Hy as (A & B & _). auto. }
      apply (t_own _ _ _ _ _ _ _ _ _ _ _ T y ltac:(unfold node in Py; clear - Py; lia)) in Hq as (Rq & <-). auto.
    - intros (Rq & Ha). destruct (t_eti _ _ _ _ _ _ _ _ _ _ _ T q Rq) as (Nq & _). exists (eti # q). split.
      + destruct (Z.eq_dec (eti # q) x) as [-> |Ne]; [left; reflexivity|right; apply KL; auto].
      + apply (t_own _ _ _ _ _ _ _ _ _ _ _ T (eti # q) ltac:(unfold node in Nq; clear - Nq; lia)). auto. }
  rewrite (crit_large s k Hs stop (flat_map own (x :: labels fx))).
  - apply set_has_ext. exact I.
  - assert (Hn : forall y, In y (x :: labels fx) -> y <> 0). { intros y Hy. assert (node tr y) as Py by (destruct Hy as [<- |Hy]; [exact Px|apply KL; exact Hy]). unfold node in Py. clear - Py; lia. }
    apply nodup_flat_map.
    + constructor; assumption.
    + intros y Hy. apply (t_own _ _ _ _ _ _ _ _ _ _ _ T y (Hn y Hy)).
    + intros y z b Hy Hz Hb Hb'. apply (t_own _ _ _ _ _ _ _ _ _ _ _ T y (Hn y Hy)) in Hb as (_ & <-). apply (t_own _ _ _ _ _ _ _ _ _ _ _ T z (Hn z Hz)) in Hb' as (_ & <-). reflexivity.
  - intros E. specialize (I p). rewrite E in I. apply (proj2 I). split; assumption.
  - intros q Hq. apply I. exact Hq.
Qed.
End below_node.

Hypothesis Hconn : forall V : Z -> Prop, (exists p, 0 <= p < N /\ V p) -> (forall p q, V p -> adj p q -> V q) -> forall p, 0 <= p < N -> V p.

Lemma open_offsets fuel imOut : (2 * length px + 1 <= fuel)%nat -> sz imOut = s ->
  exists mv out, attributeOpen fuel t k se (Img s px) imOut stop = Some (Some (1, Img s out)) /\ length out = length px /\
    (exists p, 0 <= p < N /\ px # p = mv) /\ (forall p, 0 <= p < N -> mv <= px # p) /\
    forall p, 0 <= p < N -> mv <= out # p <= px # p /\ (out # p = mv \/ set_has s k stop (lk (out # p) p)) /\
      forall h, out # p < h <= px # p -> ~ set_has s k stop (lk h p).
Proof using Ht Hty Hlen Hs Hpt HP Hsy HN Hconn.
  intros F Es. destruct (flooded t se s px k Ht Hty Hlen Hs Hpt HP Hsy HN Hconn fuel F) as (mv & st0 & st & par & kids & own & E0 & E1 & Hex & Hmin & Er & T).
  pose proof T as [(L1 & L2 & L3) Cu Rt Top Par Kids Le Eti Edge Conn Own Crit].
  set (tr := ms_tree st) in *. set (eti := ms_eti st) in *.
  assert (node tr 1) as N1 by (unfold node; clear - Cu; lia).
  assert (Htop : forall m, node tr m -> (mt_level tr) # m <= tmax t) by (intros m Hm; apply Top; exact Hm).
  destruct (kids_forest tr par kids (tmax t) Htop Par Kids 1 N1) as (f & Hf).
  destruct (kids_labels tr par kids Par Kids 1 f N1 Hf) as (NDf & N1f & KLf). destruct (Kids 1 N1) as (K1 & K2 & K3).
  assert (length (labels f) < fuel)%nat as Ff.
  { pose proof (NoDup_incl_length (l := labels f) (l' := zseq (curLabel tr)) NDf) as L. rewrite zseq_length in L by (clear - Cu; lia).
    assert (incl (labels f) (zseq (curLabel tr))) as I by (intros x Hx; apply zseq_In; apply KLf in Hx as (Hx & _); unfold node in Hx; clear - Hx; lia). specialize (L I). clear - L Cu F Hlen. lia. }
  destruct (update_ok tr par kids (conj L1 (conj L2 L3)) Par Kids k fuel (kids 1) f 1 ((mt_child tr) # 1) (mt_crit tr) Hf K1 NDf N1 N1f L3 Ff) as (cr & Ec & Lcr & _ & Xc & _).
  set (tr2 := MT (mt_level tr) (mt_child tr) (mt_brother tr) cr).
  assert (forall m, node tr2 m <-> node tr m) as NN by reflexivity.
  destruct (kids_forest tr2 par kids (tmax t) Htop Par Kids 1 N1) as (f2 & Hf2).
  destruct (kids_labels tr2 par kids Par Kids 1 f2 N1 Hf2) as (NDf2 & N1f2 & KLf2).
  assert (length (labels f2) < fuel)%nat as Ff2.
  { pose proof (NoDup_incl_length (l := labels f2) (l' := zseq (curLabel tr)) NDf2) as L. rewrite zseq_length in L by (clear - Cu; lia).
    assert (incl (labels f2) (zseq (curLabel tr))) as I by (intros x Hx; apply zseq_In; apply KLf2 in Hx as (Hx & _); unfold node in Hx; change (curLabel tr2) with (curLabel tr) in Hx; clear - Hx; lia). specialize (L I). clear - L Cu F Hlen. lia. }
  assert (Z.of_nat (length (mt_level tr)) = curLabel tr) as EL by reflexivity.
  unfold attributeOpen. cbn [sz pixs]. rewrite same_size_true by (symmetry; exact Es).
  cbn [negb]. unfold mt_build. rewrite E0. cbn [option_bind]. rewrite E1. cbn [fuel_bind option_bind]. rewrite Er. cbn [option_bind]. cbv zeta. fold tr.
  rewrite (rd_znth 0 (mt_child tr)) by (clear - Cu L1 EL; lia). cbn [option_bind]. rewrite Ec. cbn [fuel_bind option_bind ms_tree ms_eti mt_level mt_child mt_brother]. fold tr2. fold eti.
  rewrite (rd_znth 0 (mt_level tr)) by (clear - Cu EL; lia). rewrite Rt. cbn [option_bind].
  rewrite wr_upd by (rewrite map_length; clear - Cu EL; lia). cbn [option_bind]. rewrite (rd_znth 0 (mt_child tr)) by (clear - Cu L1 EL; lia). cbn [option_bind].
  set (lut0 := upd _ 1 mv).
  assert (length lut0 = length (mt_level tr)) as Ll0 by (unfold lut0; rewrite upd_length, map_length; reflexivity).
  destruct (process_ok tr2 par kids k stop) with (fuel := fuel) (l := kids 1) (f := f2) (c := (mt_child tr) # 1) (prev := mv) (lut := lut0) as (lut & El & Ll & X & O); try assumption.
  { cbn. rewrite Lcr. auto. }
  rewrite El. cbn [fuel_bind option_bind].
  assert (all_some (map (rd lut) eti) = Some (map (fun m => lut # m) eti)) as ->.
  { apply all_some_map. intros m Hm. apply In_rd in Hm as (p & Rp & Hp). apply (rd_znth 0).
    destruct (Eti p ltac:(clear - Rp Le; lia)) as (Nm & _). unfold znth in Nm. rewrite Hp in Nm. unfold node in Nm. clear - Nm Ll Ll0 EL. lia. }
  cbn [option_bind]. rewrite Es. exists mv, (map (fun m => lut # m) eti). split; [reflexivity|]. split; [rewrite map_length; clear - Le Hlen; lia|]. split; [exact Hex|]. split; [exact Hmin|].
  intros p Rp. destruct (Eti p Rp) as (Nm & Lm).
  assert (znth 0 (map (fun m => lut # m) eti) p = lut # (eti # p)) as ->.
  { unfold znth at 1. rewrite rd_map, (rd_znth 0) by (clear - Rp Le; lia). reflexivity. }
  set (m := eti # p) in *.
  assert (Large : forall x, node tr x -> x <> 1 -> anc par x m -> (large tr2 k stop x <-> set_has s k stop (fun q => 0 <= q < N /\ anc par x (eti # q)))).
  { intros x Px Nx Ha. destruct (kids_forest tr par kids (tmax t) Htop Par Kids x Px) as (fx & Hfx).
    assert (In x (labels f)) as Hx. { apply KLf. split; [exact Px|]. split; [apply (tree_root mv eti tr par kids own T); exact Px|exact Nx]. }
    unfold large. cbn [tr2 mt_crit]. pose proof (Xc x fx Hx Hfx) as Q. unfold crit in *. rewrite Q. apply (node_value mv eti tr par kids own T (mt_crit tr) fx x p); auto. }
  assert (Zone : forall h x, node tr x -> x <> 1 -> anc par x m -> (mt_level tr) # (par x) < h <= (mt_level tr) # x -> (large tr2 k stop x <-> set_has s k stop (lk h p))).
  { intros h x Px Nx Ha Hh. rewrite (Large x Px Nx Ha). apply set_has_ext. intros q. split.
    - intros (Rq & Hq). apply (zone_below mv eti tr par kids own T h x p q); assumption.
    - intros Hq. assert (0 <= q < N) as Rq by (apply (lk_end px N adj (adj_sym' se s HP Hsy) (adj_rng' se s) _ _ _ Hq)). split; [exact Rq|]. apply (zone_below mv eti tr par kids own T h x p q); assumption. }
  destruct (Z.eq_dec m 1) as [E|Nm1].
  - rewrite E. rewrite O by exact N1f2. assert (lut0 # 1 = mv) as -> by (unfold lut0; rewrite znth_upd' by (rewrite map_length; clear - Cu EL; lia); rewrite Z.eqb_refl; reflexivity).
    rewrite <- Lm, E, Rt. split; [clear; lia|]. split; [auto|]. intros h Hh. clear - Hh; lia.
  - assert (In m (labels f2)) as Hm. { apply KLf2. split; [exact Nm|]. split; [apply (tree_root mv eti tr par kids own T); exact Nm|exact Nm1]. }
    destruct (X m Hm) as (I1 & I2). rewrite <- Lm. cbn [tr2 mt_level] in I1, I2.
    assert (Lev : forall y, anc par y m -> (mt_level tr) # y <= (mt_level tr) # m). { intros y Hy. destruct (anc_level (node tr) par (znth 0 (mt_level tr)) Par _ _ Hy Nm) as [-> |Q]; [apply Z.le_refl|clear - Q; lia]. }
    destruct (Top m Nm) as (_ & [?|Lmv]); [contradiction|]. split; [|split].
    + destruct I1 as [-> |(y & Y1 & Y2 & Y3 & ->)]; [clear - Lmv; lia|]. specialize (Lev y Y2). apply KLf2 in Y1 as (Py & _ & Ny). destruct (Top y Py) as (_ & [?|Ly]); [contradiction|]. clear - Lev Ly. lia.
    + destruct I1 as [I1|(y & Y1 & Y2 & Y3 & E)]; [auto|]. right. rewrite E. apply KLf2 in Y1 as (Py & _ & Ny). apply (Zone _ y Py Ny Y2); [|exact Y3]. destruct (Par y Py Ny) as (_ & L). clear - L. lia.
    + intros h Hh Hz. destruct (anc_first (node tr) par (znth 0 (mt_level tr)) Par h m Nm) as (x & A1 & A2 & A3 & A4 & A5); [apply Hh| |].
      * rewrite Rt. destruct I1 as [I1|(y & Y1 & Y2 & Y3 & E)]; [rewrite I1 in Hh; apply Hh|]. rewrite E in Hh. apply KLf2 in Y1 as (Py & _ & Ny). destruct (Top y Py) as (_ & [?|Ly]); [contradiction|]. clear - Ly Hh. lia.
      * apply (Zone h x A3 A2 A1 (conj A5 A4)) in Hz. assert (In x (labels f2)) as Hx. { apply KLf2. split; [exact A3|]. split; [apply (tree_root mv eti tr par kids own T); exact A3|exact A2]. }
        pose proof (I2 x Hx A1 Hz) as Q. clear - Q A4 Hh. lia.
Qed.
End opening.
