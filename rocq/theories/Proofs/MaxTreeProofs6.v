(** The max-tree: the start, and the tree at the end of the flooding. *)
From Verif Require Export Proofs.MaxTreeProofs5.

Local Notation "l # i" := (znth 0 l i) (at level 9).

Lemma mt_minimum_ok t px : 0 < Z.of_nat (length px) -> (forall p, 0 <= p < Z.of_nat (length px) -> px # p <= tmax t) ->
  exists m o, mt_minimum t px = (m, o) /\ 0 <= o < Z.of_nat (length px) /\ px # o = m /\ forall p, 0 <= p < Z.of_nat (length px) -> m <= px # p.
Proof.
  intros H0 Hm. unfold mt_minimum.
  assert (forall n, 0 <= n -> exists m o, fold_left (fun m i => if znth 0 px i <? fst m then (znth 0 px i, i) else m) (zseq n) (tmax t, 0) = (m, o) /\
    ((m = tmax t /\ o = 0) \/ (0 <= o < n /\ px # o = m)) /\ forall p, 0 <= p < n -> m <= px # p) as G.
  { apply natlike_ind.
    - exists (tmax t), 0. split; [reflexivity|]. split; [auto|]. lia.
    - intros n Hn (m & o & E & A & B). change (Z.succ n) with (n + 1). rewrite zseq_succ by lia. rewrite fold_left_app, E. cbn [fold_left fst].
      destruct (Z.ltb_spec (px # n) m).
      + exists (px # n), n. split; [reflexivity|]. split; [right; split; [lia|reflexivity]|]. intros p Hp. destruct (Z.eq_dec p n) as [-> |]; [lia|]. specialize (B p ltac:(lia)). lia.
      + exists m, o. split; [reflexivity|]. split; [destruct A as [A|(A1 & A2)]; [left; exact A|right; split; [lia|exact A2]]|].
        intros p Hp. destruct (Z.eq_dec p n) as [-> |]; [lia|]. apply B. lia. }
  destruct (G (Z.of_nat (length px)) ltac:(lia)) as (m & o & E & A & B). exists m, o. split; [exact E|]. split; [|split; [|exact B]].
  - destruct A as [(_ & ->)|(A & _)]; lia.
  - destruct A as [(-> & ->)|(_ & A)]; [|exact A]. specialize (Hm 0 ltac:(lia)). specialize (B 0 ltac:(lia)). lia.
Qed.

Section start.
Variables (t : ity) (se : strelt) (s : dims) (px : list Z) (k : ckind).
Hypothesis Ht : t = UINT8 \/ t = UINT16.
Local Notation N := (dw s * dh s * dd s).
Hypothesis Hty : forall p, 0 <= p < N -> 0 <= px # p <= tmax t.
Hypothesis Hlen : Z.of_nat (length px) = N.
Hypothesis Hs : int_sized s.
Hypothesis Hpt : int_points se.
Hypothesis HP : planar se s.
Hypothesis Hsy : symmetric_se se.
Hypothesis HN : 0 < N < MAX_NODES.
Local Notation adj := (covers se s).
Hypothesis Hconn : forall V : Z -> Prop, (exists p, 0 <= p < N /\ V p) -> (forall p q, V p -> adj p q -> V q) -> forall p, 0 <= p < N -> V p.
Local Notation co := (co s).

(** The tree of the image. *)
Record tree_of (mv : Z) (eti : list Z) (tr : mtree) (par : Z -> Z) (kids own : Z -> list Z) : Prop := {
  t_lens : length (mt_child tr) = length (mt_level tr) /\ length (mt_brother tr) = length (mt_level tr) /\ length (mt_crit tr) = length (mt_level tr);
  t_cur : 2 <= curLabel tr <= N + 1;
  t_root : (mt_level tr) # 1 = mv;
  t_top : forall m, node tr m -> (mt_level tr) # m <= tmax t /\ (m = 1 \/ mv < (mt_level tr) # m);
  t_par : forall m, node tr m -> m <> 1 -> node tr (par m) /\ (mt_level tr) # (par m) < (mt_level tr) # m;
  t_kids : forall m, node tr m -> sibs (znth 0 (mt_brother tr)) ((mt_child tr) # m) (kids m) /\ NoDup (kids m) /\
     forall c, In c (kids m) <-> node tr c /\ c <> 1 /\ par c = m;
  t_len : Z.of_nat (length eti) = N;
  t_eti : forall p, 0 <= p < N -> node tr (eti # p) /\ (mt_level tr) # (eti # p) = px # p;
  t_edge : forall p q, adj p q -> px # q <= px # p -> anc par (eti # q) (eti # p);
  t_conn : forall n p q, 0 <= p < N -> 0 <= q < N -> anc par n (eti # p) -> anc par n (eti # q) -> lk px N adj ((mt_level tr) # n) p q;
  t_own : forall m, m <> 0 -> NoDup (own m) /\ (forall q, In q (own m) <-> 0 <= q < N /\ eti # q = m);
  t_crit : forall m, node tr m -> m <> 1 -> znth (0, 0) (mt_crit tr) m = crit_of co k (own m) }.

Lemma rd_zeros n i : 0 <= i < n -> rd (map (fun _ : Z => 0) (zseq n)) i = Some 0.
Proof using. intros H. rewrite rd_map, rd_zseq by exact H. reflexivity. Qed.

Lemma count_zeros {A} (l : list A) : count 0 (map (fun _ => 0) l) = length l.
Proof using. unfold count. induction l as [|a l IH]; [reflexivity|]. cbn. rewrite IH. reflexivity. Qed.
Lemma znth_zeros {A} (l : list A) i : znth 0 (map (fun _ => 0) l) i = 0.
Proof using. unfold znth. rewrite rd_map. destruct (rd l i); reflexivity. Qed.

Lemma start_ok mv mo : 0 <= mo < N -> px # mo = mv -> (forall p, 0 <= p < N -> mv <= px # p) ->
  mt_minimum t px = (mv, mo) ->
  exists st par kids own, mt_initialize t k px (map (fun _ => 0) px) = Some (st, mv) /\
    minv t mv se s px k (fun _ => False) mv st [(mv, mo)] par kids own /\ (ms_eti st) # mo <> 0 /\ (count 0 (ms_eti st) <= length px)%nat.
Proof using Ht Hty Hlen Hs Hpt HP Hsy HN.
  intros Hmo Emo Hmin Em. pose proof (u816 t Ht) as (T0 & TC & TM). pose proof (Hty mo Hmo) as Tmo.
  assert (MAX_NODES = 41943040) as EM by reflexivity.
  unfold mt_initialize. rewrite Em. rewrite wr_upd by (rewrite map_length; clear - Hlen Hmo; lia). cbn [option_bind].
  rewrite wr_upd by (rewrite map_length, zseq_length; clear - Tmo Emo TC; lia). cbn [option_bind].
  destruct (hq_push_ok t true _ [] mv mo (hq_init_ok t true Ht)) as (q & Eq & Q); [unfold inty; rewrite T0; clear - Tmo Emo; lia|cbn; lia|]. rewrite Eq. cbn [option_bind].
  assert (Up : forall p, znth 0 (upd (map (fun _ => 0) px) mo 1) p = if p =? mo then 1 else 0).
  { intros p. rewrite znth_upd' by (rewrite map_length; clear - Hlen Hmo; lia). rewrite znth_zeros. reflexivity. }
  assert (Ul : forall j, znth 0 (upd (map (fun _ => 0) (zseq (tcard t))) mv 1) j = if j =? mv then 1 else 0).
  { intros p. rewrite znth_upd' by (rewrite map_length, zseq_length; clear - Tmo Emo TC; lia). rewrite znth_zeros. reflexivity. }
  set (tr := MT [0; mv] [0; 0] [0; 0] [c_init k; c_init k]).
  assert (forall m, node tr m <-> m = 1) as N1 by (intros m; unfold node, curLabel, tr; cbn; clear; lia).
  assert ((mt_level tr) # 1 = mv) as L1 by reflexivity.
  assert (A1 : forall n, anc (fun m => m) n 1 -> n = 1). { intros n Hn. apply anc_cases in Hn as [|(F & _)]; [assumption|contradiction]. }
  exists (MS (upd (map (fun _ => 0) px) mo 1) (upd (map (fun _ => 0) (zseq (tcard t))) mv 1) tr q), (fun m => m), (fun _ => []), (fun m => if m =? 1 then [mo] else []).
  split; [reflexivity|]. cbn [ms_eti]. split; [|split].
  - constructor; cbn [ms_lab ms_eti ms_tree ms_q].
    + constructor.
      * cbn. auto.
      * cbn. clear; lia.
      * rewrite upd_length, map_length, zseq_length. clear - TC TM; lia.
      * clear - Tmo Emo TC; lia.
      * rewrite Ul, Z.eqb_refl. auto.
      * rewrite Ul, Z.eqb_refl. discriminate.
      * intros j Hj. assert (j = mv) as -> by (clear - Hj; lia). rewrite Ul, Z.eqb_refl. intros _. split; [apply N1; reflexivity|exact L1].
      * intros m Hm Hn. apply N1 in Hm. contradiction.
      * intros m Hm. apply N1 in Hm as ->. split; [constructor|]. split; [constructor|]. intros c. split; [intros []|]. intros (Hc & Nc & _). apply N1 in Hc. contradiction.
      * intros j j' Hj Hj' A B. clear - Hj Hj'. lia.
      * intros m Hm. apply N1 in Hm as ->. rewrite L1. split; [clear - Tmo Emo; lia|auto].
    + constructor.
      * rewrite upd_length, map_length. exact Hlen.
      * intros p Hp. rewrite Up. destruct (Z.eqb_spec p mo) as [-> |]; [|contradiction]. intros _. split; [apply N1; reflexivity|]. rewrite L1. symmetry; exact Emo.
      * intros p [Hp|[]]. unfold queued in Hp. cbn in Hp. destruct Hp as [<- |[]]. rewrite Up, Z.eqb_refl, Emo, Ul, Z.eqb_refl. split; [exact Hmo|]. split; [discriminate|]. split; [apply Z.le_refl|reflexivity].
      * intros p Hp. rewrite Up. destruct (Z.eqb_spec p mo) as [-> |]; [|contradiction]. intros _. left; left. unfold queued. cbn. auto.
      * intros p p' _. rewrite !Up. destruct (p =? mo); [|contradiction]. destruct (p' =? mo); [|contradiction]. intros; apply anc_self.
      * intros n p p' Hp Hp'. rewrite !Up. destruct (Z.eqb_spec p mo) as [-> |]; [|contradiction]. destruct (Z.eqb_spec p' mo) as [-> |]; [|contradiction].
        intros _ _ Hn _. apply A1 in Hn as ->. rewrite L1. apply lk_refl; [exact Hmo|rewrite Emo; apply Z.le_refl].
      * intros m Hm. destruct (Z.eqb_spec m 1) as [-> |].
        -- split; [constructor; [intros []|constructor]|]. intros q'. rewrite Up. cbn. destruct (Z.eqb_spec q' mo) as [-> |]; [tauto|]. split; [intros [?|[]]; congruence|intros (_ & ?); discriminate].
        -- split; [constructor|]. intros q'. rewrite Up. cbn. split; [intros []|]. intros (_ & H). destruct (q' =? mo); congruence.
      * intros m Hm Hn. apply N1 in Hm. contradiction.
    + exact Q.
    + cbn. constructor; [intros []|constructor].
    + intros v p [Hp|[]]. injection Hp as <- <-. symmetry; exact Emo.
    + pose proof (count_upd 0 (map (fun _ => 0) px) mo 1) as C. rewrite count_zeros in C. specialize (C ltac:(rewrite map_length; clear - Hlen Hmo; lia) (znth_zeros px mo) ltac:(discriminate)).
      change (curLabel tr) with 2. clear - C Hlen. lia.
  - rewrite Up, Z.eqb_refl. discriminate.
  - etransitivity; [apply count_le|]. rewrite upd_length, map_length. apply le_n.
Qed.

Lemma flooded fuel : (2 * length px + 1 <= fuel)%nat ->
  exists mv st0 st par kids own, mt_initialize t k px (map (fun _ => 0) px) = Some (st0, mv) /\
    mt_flood fuel t k se s px mv st0 = Some (Some st) /\ (exists p, 0 <= p < N /\ px # p = mv) /\ (forall p, 0 <= p < N -> mv <= px # p) /\
    rd (ms_lab st) mv = Some 1 /\ tree_of mv (ms_eti st) (ms_tree st) par kids own.
Proof using Ht Hty Hlen Hs Hpt HP Hsy HN Hconn.
  intros F. destruct (mt_minimum_ok t px ltac:(clear - Hlen HN; lia)) as (mv & mo & Em & Rmo & Emo & Hmin); [rewrite Hlen; intros p Hp; apply Hty; exact Hp|]. rewrite Hlen in Rmo, Hmin.
  destruct (start_ok mv mo Rmo Emo Hmin Em) as (st0 & par0 & kids0 & own0 & E0 & I0 & V0 & C0).
  assert (0 <= mv) as Hmv by (rewrite <- Emo; apply Hty; exact Rmo).
  assert (forall p, 0 <= p < N -> mv <= px # p <= tmax t) as Hpx by (intros p Hp; split; [apply Hmin|apply Hty]; exact Hp).
  assert (2 * length px + 1 <= fuel)%nat as F' by exact F.
  destruct (mt_flood_ok t mv se s px k Ht Hmv Hpx Hlen Hs Hpt HP Hsy HN fuel mv st0 _ par0 kids0 own0 I0) as (st & lam & par & kids & own & E & I & V).
  { cbn [length]. clear - C0 F'. lia. }
  exists mv, st0, st, par, kids, own. split; [exact E0|]. split; [exact E|]. split; [eauto|]. split; [exact Hmin|].
  destruct I as [S P Q ND Vq C]. pose proof (u816 t Ht) as (T0 & TC & TM). destruct S as [L Cu Ll Lam (R1 & R2) Top Lab Par Kids Sp Lvl].
  split; [rewrite (rd_znth 0); [rewrite R1; reflexivity|clear - Ll Lam Hmv TC; lia]|].
  destruct P as [Len Eti Open Done Edge Conn Own Crit].
  assert (All : forall p, 0 <= p < N -> (ms_eti st) # p <> 0).
  { apply (Hconn (fun p => (ms_eti st) # p <> 0)); [exists mo; auto|].
    intros p q Vp A. destruct (Done p (adj_rng' se s p q A) Vp) as [[[]|[]]|D]. apply D; exact A. }
  constructor; try assumption.
  - clear - Cu C HN. lia.
  - intros p Hp. apply Eti; [exact Hp|apply All; exact Hp].
  - intros p q A Hl. apply Edge; try assumption; apply All; [exact (adj_rng' se s p q A)|exact (adj_rng' se s q p (adj_sym' se s HP Hsy p q A))].
  - intros n p q Hp Hq. apply Conn; try assumption; apply All; assumption.
Qed.
End start.
