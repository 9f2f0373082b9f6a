(** Extinction values: the whole flooding, and flooding from zones. *)
From Verif Require Export Proofs.WatershedTheorems Proofs.ExtinctionProofs2.

Lemma queue_count m (r : list (Z * Z)) px : NoDup (map snd r) -> (forall v p, In (v, p) r <-> 0 <= p < Z.of_nat (length m) /\ v = znth 0 px p /\ znth 0 m p <> 0) ->
  (length r + count 0 m <= length m)%nat.
Proof.
  intros ND R. assert (Hc : forall l : list Z, (length (filter (fun v : Z => negb (v =? 0)%Z) l) + count 0 l = length l)%nat). { clear. intros l. unfold count. induction l as [|a l IH]; cbn; [reflexivity|]. destruct (a =? 0); cbn; lia. }
  rewrite <- (Hc m). apply Nat.add_le_mono_r.
  replace (filter (fun v => negb (v =? 0)) m) with (map (fun i => znth 0 m i) (filter (fun i => negb (znth 0 m i =? 0)) (zseq (Z.of_nat (length m))))).
  - rewrite map_length. rewrite <- (map_length snd r). apply NoDup_incl_length; [exact ND|]. intros p Hin. apply in_map_iff in Hin as ((v, p') & Ep & Hin). cbn in Ep. subst p'.
    apply R in Hin as (A & _ & C). apply filter_In. split; [apply zseq_In; exact A|]. destruct (Z.eqb_spec (znth 0 m p) 0); [contradiction|reflexivity].
  - rewrite <- (filter_map_comm (fun v => negb (v =? 0)) (znth 0 m)), map_znth_zseq. reflexivity.
Qed.

(** The greatest label. *)
Definition top_label (t2 : ity) (markers : img) : Z := fmax (pixs markers) (tmin t2).

Lemma top_spec t2 markers : wf_img markers -> int_sized (sz markers) -> typed_img t2 markers -> tmin t2 = 0 -> (forall x y z l, pixel_is markers x y z l -> l < tmax t2) ->
  0 <= top_label t2 markers < tmax t2 /\ top_label t2 markers + 1 < 2 ^ 32 /\ (forall p, 0 <= p < Z.of_nat (length (pixs markers)) -> 0 <= znth 0 (pixs markers) p <= top_label t2 markers) /\
  (top_label t2 markers = 0 \/ exists x y z, pixel_is markers x y z (top_label t2 markers)).
Proof.
  intros Wm Hs Tm T0 Hlt. destruct (fmax_spec (pixs markers) (tmin t2)) as (A & B & C). fold (top_label t2 markers) in *. rewrite T0 in B. pose proof Wm as (Wd & Lm).
  assert (Ex : forall v, In v (pixs markers) -> exists x y z, pixel_is markers x y z v).
  { intros v Hv. apply In_rd in Hv as (k & Hk & R). rewrite Lm in Hk. destruct (voxel_exists (sz markers) k) as (x & y & z & I & Ek); [apply int_small; exact Hs|exact Hk|]. exists x, y, z. split; [exact I|]. rewrite <- Ek. exact R. }
  assert (E : top_label t2 markers < tmax t2). { destruct A as [->|A]; [destruct t2; cbn; lia|]. destruct (Ex _ A) as (x & y & z & P). exact (Hlt _ _ _ _ P). }
  split; [lia|]. split; [assert (tmax t2 <= tmax UINT32) by (destruct t2; cbn; lia); change (tmax UINT32) with 4294967295 in *; lia|]. split.
  - intros p Hp. pose proof (rd_znth 0 (pixs markers) p Hp) as R. apply rd_In in R. split; [|apply C; exact R]. unfold typed_img in Tm. rewrite Forall_forall in Tm. specialize (Tm _ R). unfold inty in Tm. lia.
  - destruct A as [A|A]; [left; lia|right; apply Ex; exact A].
Qed.

Section Run.
Context (k : criterion) (t t2 te : ity) (se : strelt) (im markers : img).
Notation s := (sz im).
Notation px := (pixs im).
Notation m := (pixs markers).
Notation n := (top_label t2 markers).
Notation N := (dw s * dh s * dd s).
Local Notation "l # i" := (znth 0 l i) (at level 9).
Context (F : flood_ok t t2 se im markers) (T0 : tmin t2 = 0) (Hlt : forall x y z l, pixel_is markers x y z l -> l < tmax t2).
Context (R : Z -> Z -> Z -> Prop) (Q : Z -> Z -> Prop) (W : list Z -> Z -> Z -> Prop).
Context (R_mono : forall L L' a b, R L a b -> L <= L' -> R L' a b) (R_sym : forall L a b, R L a b -> R L b a) (R_trans : forall L a b c, R L a b -> R L b c -> R L a c).
Context (W_mono : forall D p a b, W D a b -> W (p :: D) a b) (W_trans : forall D a b c, W D a b -> W D b c -> W D a c).
Context (merge_ok : forall h lbl q r D L b cur nb, binv t se s px m h lbl q r -> queued r cur -> 0 <= cur < N -> lbl # cur <> 0 ->
  (forall p, In p D <-> 0 <= p < N /\ lbl # p <> 0 /\ ~ queued r p) -> dok s px n (fun p => lbl # p) D h -> (forall p, 0 <= p < N -> 0 <= lbl # p <= n) -> L = Z.max h px # cur -> L <= tmax t ->
  (forall p, below se s px m L p -> In p D) -> src_ok s m lbl D -> xinv k t se s px n R Q W (fun p => lbl # p) D L b -> In nb D -> covers se s nb cur -> (bd_equ b) # (lbl # nb) <> (bd_equ b) # (lbl # cur) ->
  R L lbl # nb lbl # cur /\ forall eo do, (eo = lbl # nb /\ do = lbl # cur) \/ (eo = lbl # cur /\ do = lbl # nb) -> data_wins k b (bd_equ b) # eo (bd_equ b) # do ->
    Q (bd_equ b) # do (wrap te (data_value k L b (bd_equ b) # do)) /\ W D (bd_equ b) # do (bd_equ b) # eo).

Lemma process_run fuel g : (length px <= fuel)%nat -> (Z.to_nat n <= fuel)%nat -> n <> 0 ->
  let g0 := match g with None => None | Some g => Some (clear g) end in
  exists lbl q D L b g' stat last b', ext_process fuel k t t2 te se im markers g0 = Some (Some (lbl, b', g')) /\
    (exists q0, flood_init t px m = Some q0 /\ flood_loop fuel t se s px (FL m q0) = Some (Some (FL lbl q))) /\
    linv k t se s px m n R Q W lbl q [] D L b g' stat (Some last) /\ In last D /\ length (bd_ext b') = Z.to_nat (n + 1) /\
    forall j, (bd_ext b') # j = put (bd_ext b) (bd_equ b) # (lbl # last) (last_value k te L b (bd_equ b) # (lbl # last)) j.
Proof.
  intros Hf Hfn Hn0 g0. pose proof F as (Ht & Wi & Wm & Sm & Ti & Tm & Hs & Hw & Hp & HP). pose proof Wi as (Wd & Li). pose proof Wm as (_ & Lm). rewrite Sm in Lm. pose proof Hs as (_ & _ & _ & Hbig). unfold pixelCount in *.
  destruct (top_spec t2 markers Wm ltac:(rewrite Sm; exact Hs) Tm T0 Hlt) as (Hn & Hn32 & Hm & Hx). fold s in *.
  destruct (flood_init_ok t px m Ht Ti ltac:(lia) ltac:(lia)) as (q0 & r & Eq & HQ & ND & Lr & HR).
  pose proof (queue_count m r px ND HR) as Ct.
  pose proof (ext_start k t te se s px m n Ht ltac:(lia) ltac:(lia) Ti ltac:(lia) R Q W R_mono R_sym R_trans W_mono W_trans merge_ok q0 r g HQ ND HR ltac:(intros; apply Hm; lia)) as IV.
  destruct (ext_loop_ok k t t2 te se s px m n Ht Hs Hp HP ltac:(lia) Ti ltac:(lia) Hn32 T0 ltac:(lia) R Q W R_mono R_sym R_trans W_mono W_trans merge_ok fuel Hfn fuel _ _ _ _ _ _ _ _ _ IV ltac:(lia) ltac:(lia))
    as (lbl & q & D & L & b & g' & stat & last & E & E2 & IV').
  (* some pixel is done *)
  assert (Hd : exists p, In p D).
  { destruct Hx as [Hx|(x & y & z & P)]; [lia|]. destruct (px_val (sz im) markers _ _ _ _ Sm P) as (I & Rg & El2). exists (voxel_offset (dw s) (dh s) x y z). apply (l_D _ _ _ _ _ _ _ _ _ _ _ _ _ _ _ _ _ _ _ IV'). split; [exact Rg|]. split; [|intros []].
    rewrite (b_mark _ _ _ _ _ _ _ _ _ (l_b _ _ _ _ _ _ _ _ _ _ _ _ _ _ _ _ _ _ _ IV')) by (auto; lia). lia. }
  pose proof (l_last _ _ _ _ _ _ _ _ _ _ _ _ _ _ _ _ _ _ _ IV') as El. destruct D as [|p0 D0] eqn:ED; [destruct Hd as (? & [])|]. cbn [hd_error] in El. subst last. rewrite <- ED in *.
  assert (Hp0 : In p0 D) by (rewrite ED; left; reflexivity). destruct (d_in _ _ _ _ _ _ (l_dok _ _ _ _ _ _ _ _ _ _ _ _ _ _ _ _ _ _ _ IV') p0 Hp0) as (Rg & Hl & _).
  pose proof (l_x _ _ _ _ _ _ _ _ _ _ _ _ _ _ _ _ _ _ _ IV') as X. pose proof (x_sz _ _ _ _ _ _ _ _ _ _ _ _ _ X) as Sz. pose proof Sz as (Lq & _).
  destruct (finalize_spec k te n L (bd_equ b) # (lbl # p0) b Sz) as (b' & Eb & Sb & Vb); [apply (x_rng _ _ _ _ _ _ _ _ _ _ _ _ _ X); lia|].
  exists lbl, q, D, L, b, g', stat, p0, b'. split; [|split; [|split; [|split; [|split]]]].
  - unfold ext_process. rewrite maxVal_eq by exact Wm. cbn [option_bind considered]. fold n. rewrite (wrap32_small n) by lia. rewrite wrap32_small by lia. rewrite Eq. cbn [option_bind]. unfold g0. rewrite E. cbn [fuel_bind option_bind ex_fl ex_last ex_b ex_g ex_level fl_lbl].
    rewrite (rd_znth 0 lbl p0) by (rewrite (b_len _ _ _ _ _ _ _ _ _ (l_b _ _ _ _ _ _ _ _ _ _ _ _ _ _ _ _ _ _ _ IV')); exact Rg). cbn [option_bind]. rewrite (rd_znth 0 (bd_equ b)) by lia. cbn [option_bind]. rewrite Eb. reflexivity.
  - exists q0. split; [exact Eq|exact E2].
  - exact IV'.
  - exact Hp0.
  - destruct Sb as (_ & L2 & _). lia.
  - exact Vb.
Qed.
End Run.

(** ** Any markers *)
Section AnyMarkers.
Context (k : criterion) (t t2 te : ity) (se : strelt) (im markers : img).
Context (F : flood_ok t t2 se im markers) (T0 : tmin t2 = 0) (Hlt : forall x y z l, pixel_is markers x y z l -> l < tmax t2).
Local Notation "l # i" := (znth 0 l i) (at level 9).
Lemma wrap_inty x : inty te (wrap te x).
Proof. apply wrap_range. Qed.
Lemma any_run fuel g : (length (pixs im) <= fuel)%nat -> (Z.to_nat (top_label t2 markers) <= fuel)%nat -> top_label t2 markers <> 0 ->
  let g0 := match g with None => None | Some g => Some (clear g) end in
  exists lbl q D L b g' stat last b', ext_process fuel k t t2 te se im markers g0 = Some (Some (lbl, b', g')) /\
    (exists q0, flood_init t (pixs im) (pixs markers) = Some q0 /\ flood_loop fuel t se (sz im) (pixs im) (FL (pixs markers) q0) = Some (Some (FL lbl q))) /\
    linv k t se (sz im) (pixs im) (pixs markers) (top_label t2 markers) (fun _ _ _ => True) (fun _ x => inty te x) (fun _ _ _ => True) lbl q [] D L b g' stat (Some last) /\ In last D /\ length (bd_ext b') = Z.to_nat (top_label t2 markers + 1) /\
    forall j, (bd_ext b') # j = put (bd_ext b) (bd_equ b) # (lbl # last) (last_value k te L b (bd_equ b) # (lbl # last)) j.
Proof. intros. apply process_run; auto. intros. split; [exact I|]. intros. split; [apply wrap_inty|exact I]. Qed.
End AnyMarkers.

(** ** Markers that are zones *)
Section Zones.
Context (k : criterion) (t t2 te : ity) (se : strelt) (im markers : img).
Notation s := (sz im).
Notation px := (pixs im).
Notation m := (pixs markers).
Notation n := (top_label t2 markers).
Notation N := (dw s * dh s * dd s).
Local Notation "l # i" := (znth 0 l i) (at level 9).
Context (F : flood_ok t t2 se im markers) (T0 : tmin t2 = 0) (Hlt : forall x y z l, pixel_is markers x y z l -> l < tmax t2).

(** A walk through pixels of value at most [h]. *)
Inductive walk (h : Z) (p : Z) : Z -> Prop :=
| walk0 : 0 <= p < N -> px # p <= h -> walk h p p
| walk_step q r : walk h p q -> covers se s r q -> px # r <= h -> walk h p r.

Context (Sy : two_way se s).
Lemma walk_range h p q : walk h p q -> (0 <= p < N /\ px # p <= h) /\ (0 <= q < N /\ px # q <= h).
Proof. intros H. induction H as [H1 H2|q r H IH Cv Hv]; [auto|]. split; [apply IH|]. split; [apply (covers_range _ _ _ _ Cv)|exact Hv]. Qed.
Lemma walk_trans h p q r : walk h p q -> walk h q r -> walk h p r.
Proof. intros H1 H2. induction H2 as [H2 H3|r u H2 IH Cv Hv]; [exact H1|]. eapply walk_step; eauto. Qed.
Lemma walk_one h p q : covers se s q p -> px # p <= h -> px # q <= h -> walk h p q.
Proof. intros Cv H1 H2. eapply walk_step; [apply walk0; [apply (covers_range _ _ _ _ Cv)|exact H1]|exact Cv|exact H2]. Qed.
Lemma walk_sym h p q : walk h p q -> walk h q p.
Proof. intros H. induction H as [H1 H2|q r H IH Cv Hv]; [apply walk0; assumption|]. apply walk_trans with q; [|exact IH]. apply walk_one; [apply Sy; exact Cv|exact Hv|apply (walk_range _ _ _ H)]. Qed.
Lemma walk_mono h h' p q : h <= h' -> walk h p q -> walk h' p q.
Proof. intros Hh H. induction H as [H1 H2|q r H IH Cv Hv]; [apply walk0; [assumption|lia]|]. eapply walk_step; [exact IH|exact Cv|lia]. Qed.

Context (Z1 : forall p q, 0 <= p < N -> 0 <= q < N -> m # p <> 0 -> m # p = m # q -> walk px # p p q /\ px # p = px # q).
Context (Z2 : forall p q, 0 <= p < N -> m # p <> 0 -> covers se s q p -> m # q = m # p \/ px # p < px # q).
Context (Z3 : forall p, 0 <= p < N -> px # p < tmax t -> ~ ~ exists d, m # d <> 0 /\ walk px # p d p).

Definition zR (L a b : Z) : Prop := exists p q, m # p = a /\ m # q = b /\ a <> 0 /\ b <> 0 /\ walk L p q.
Definition zW (D : list Z) (a r : Z) : Prop := exists d, In d D /\ 0 <= d < N /\ m # d = r /\ (k = ByDynamic -> forall d', 0 <= d' < N -> m # d' = a -> px # d <= px # d').

(** The zone [S] of the pixel [d] at the level [h]. *)
Definition zone (h d : Z) (S : list Z) : Prop := (forall p, walk (h - 1) d p -> In p S) /\ (forall p, In p S -> walk h d p).
Definition size_of (S : list Z) : Z := Z.of_nat (length S).
Definition vol_of (h : Z) (S : list Z) : Z := Zsum (map (fun p => h - px # p) S) mod 2 ^ 32.

(** The value of a basin that has been eaten. *)
Definition zQ (e x : Z) : Prop := exists h d f, 0 <= d < N /\ m # d = e /\ 0 <= f < N /\ m # f <> 0 /\ m # f <> e /\ walk h d f /\ h <= tmax t /\
  match k with
  | ByDynamic => x = wrap te (h - px # d) /\ px # f <= px # d /\ (forall p, walk (h - 1) d p -> px # d <= px # p)
  | ByArea => exists S S', NoDup (S ++ S') /\ zone h d S /\ zone h f S' /\ x = wrap te (size_of S) /\ size_of S <= size_of S'
  | ByVolume => exists S S', NoDup (S ++ S') /\ zone h d S /\ zone h f S' /\ x = wrap te (vol_of h S) /\ vol_of h S <= vol_of h S'
  end.

Lemma zR_mono L L' a b : zR L a b -> L <= L' -> zR L' a b.
Proof. intros (p & q & A & B & C & D & H) HL. exists p, q. repeat (split; [assumption|]). eapply walk_mono; eauto. Qed.
Lemma zR_sym L a b : zR L a b -> zR L b a.
Proof. intros (p & q & A & B & C & D & H). exists q, p. repeat (split; [assumption|]). apply walk_sym. exact H. Qed.
Lemma zR_trans L a b c : zR L a b -> zR L b c -> zR L a c.
Proof.
  intros (p & q & A & B & C & D & H) (p' & q' & A' & B' & C' & D' & H'). exists p, q'. repeat (split; [assumption|]). destruct (walk_range _ _ _ H) as (_ & Rq & Hq). destruct (walk_range _ _ _ H') as ((Rp & _) & _).
  destruct (Z1 q p' Rq Rp ltac:(congruence) ltac:(congruence)) as (K & _). eapply walk_trans; [exact H|]. eapply walk_trans; [|exact H']. eapply walk_mono; [exact Hq|exact K].
Qed.
Lemma zW_mono D p a b : zW D a b -> zW (p :: D) a b.
Proof. intros (d & H1 & H2 & H3). exists d. split; [right; exact H1|]. auto. Qed.
Lemma zW_trans D a b c : zW D a b -> zW D b c -> zW D a c.
Proof.
  intros (d & H1 & H2 & H3 & H4) (d' & H1' & H2' & H3' & H4'). exists d'. repeat (split; [assumption|]). intros Hk x Hx Ex. specialize (H4 Hk x Hx Ex). specialize (H4' Hk d H2 H3). lia.
Qed.

Lemma bpath_walk lbl l h p : bpath se s px m lbl l h p -> exists d, 0 <= d < N /\ m # d = l /\ px # d <= h /\ walk h d p.
Proof.
  intros B. induction B as [p Hp Hm Hv|p nb B (d & Hd & Em & Hv & Wk) Cv Hv' Hb].
  - exists p. repeat (split; [assumption|]). apply walk0; assumption.
  - exists d. repeat (split; [assumption|]). eapply walk_step; eauto.
Qed.
Lemma walk_below h d p : 0 <= d < N -> m # d <> 0 -> walk h d p -> below se s px m (h + 1) p.
Proof. intros Hd Hm H. induction H as [H1 H2|q r H IH Cv Hv]; [apply below0; [assumption|assumption|lia]|]. eapply below_step; [exact IH|exact Cv|lia]. Qed.

(** A labelled pixel is not lower than the marker. *)
Lemma above_marker h lbl q r p : binv t se s px m h lbl q r -> 0 <= p < N -> lbl # p <> 0 -> forall d, 0 <= d < N -> m # d = lbl # p -> px # d <= px # p.
Proof.
  intros IV Hp Hl d Hd Ed. destruct (b_path _ _ _ _ _ _ _ _ _ IV p Hp Hl) as (k0 & B & Nb & _). destruct (bpath_walk _ _ _ _ B) as (d0 & Hd0 & E0 & V0 & _).
  destruct (Z1 d d0 Hd Hd0 ltac:(congruence) ltac:(congruence)) as (_ & Ev). destruct (Z.le_gt_cases px # d px # p) as [H|H]; [exact H|exfalso].
  assert (Hmax : px # d <= tmax t). { destruct F as (_ & Wi & _ & _ & Ti & _). pose proof Wi as (_ & Li). unfold pixelCount in Li. pose proof (typed_at t px d Ti ltac:(lia)) as I. unfold inty in I. lia. }
  apply (Z3 p Hp ltac:(lia)). intros (x & Hx & Wk). apply Nb. destruct (walk_range _ _ _ Wk) as ((Rx & _) & _). apply (walk_below _ _ _ Rx Hx) in Wk. clear -Wk H Ev V0.
  assert (Mono : forall a b y, a <= b -> below se s px m a y -> below se s px m b y) by (intros a b y Hab B; induction B as [y Hy Hm Hv|y z B IH Cv Hv]; [apply below0; auto; lia|eapply below_step; [exact IH|exact Cv|lia]]).
  eapply Mono; [|exact Wk]. lia.
Qed.

Notation zinv := (xinv k t se s px n zR zQ zW).
(** What is known at a merge. *)
Section Merge.
Context (h : Z) (lbl : list Z) (q : hqueue) (r : list (Z * Z)) (D : list Z) (L : Z) (b : basin_data).
Context (IV : binv t se s px m h lbl q r) (HD : forall p, In p D <-> 0 <= p < N /\ lbl # p <> 0 /\ ~ queued r p) (Dk : dok s px n (fun p => lbl # p) D h).
Context (HL : h <= L) (Bl : forall p, below se s px m L p -> In p D) (X : zinv (fun p => lbl # p) D L b).

Lemma class_zone e d : In d D -> m # d = e -> is_root n b e -> zone L d (members (fun p => lbl # p) (bd_equ b) D e).
Proof.
  intros Hd Em (He & Er). pose proof (proj1 (HD d) Hd) as (Rd & Ld & _). assert (Eld : lbl # d = e) by (rewrite (b_mark _ _ _ _ _ _ _ _ _ IV d Rd) by lia; exact Em). split.
  - intros p Wk. assert (K : In p D /\ (bd_equ b) # (lbl # p) = e); [|apply members_In; exact K]. induction Wk as [H1 H2|p u Wk IH Cv Hv]; [split; [exact Hd|congruence]|].
    assert (Hu : In u D). { apply Bl. replace L with (L - 1 + 1) by lia. apply (walk_below (L - 1) d u Rd ltac:(lia)). eapply walk_step; eauto. }
    split; [exact Hu|]. destruct IH as (Hp & Ep). rewrite <- Ep. apply (x_adj _ _ _ _ _ _ _ _ _ _ _ _ _ X Sy u p Hu Hp). apply Sy. exact Cv.
  - intros p Hp. apply members_In in Hp as (Hp & Ep). destruct (d_in _ _ _ _ _ _ Dk p Hp) as (Rp & Lp & Vp). destruct (b_path _ _ _ _ _ _ _ _ _ IV p Rp ltac:(lia)) as (k0 & B & _ & Hk). destruct (bpath_walk _ _ _ _ B) as (d0 & Hd0 & E0 & V0 & Wk).
    apply (walk_mono k0 L) in Wk; [|lia]. eapply walk_trans; [|exact Wk].
    destruct (x_class _ _ _ _ _ _ _ _ _ _ _ _ _ X lbl # p e Lp He ltac:(congruence)) as [E|(a & c & Ea & Ec & _ & _ & Wk')].
    + destruct (Z1 d0 d Hd0 Rd ltac:(lia) ltac:(congruence)) as (K & _). apply walk_sym. eapply walk_mono; [|exact K]. lia.
    + destruct (walk_range _ _ _ Wk') as ((Ra & Va) & Rc & Vc). destruct (Z1 a d0 Ra Hd0 ltac:(lia) ltac:(congruence)) as (K1 & _). destruct (Z1 c d Rc Rd ltac:(lia) ltac:(congruence)) as (K2 & _).
      apply walk_sym. eapply walk_trans; [apply walk_sym; eapply walk_mono; [|exact K1]; exact Va|]. eapply walk_trans; [exact Wk'|]. eapply walk_mono; [|exact K2]. exact Vc.
Qed.

Lemma class_low e d : k = ByDynamic -> In d D -> m # d = e -> is_root n b e -> (bd_min b) # e = px # d.
Proof.
  intros Hk Hd Em Hr. pose proof Hr as (He & Er). rewrite (x_min _ _ _ _ _ _ _ _ _ _ _ _ _ X Hk e Hr). pose proof (proj1 (HD d) Hd) as (Rd & Ld & _). assert (Eld : lbl # d = e) by (rewrite (b_mark _ _ _ _ _ _ _ _ _ IV d Rd) by lia; exact Em).
  apply Z.le_antisymm; [apply lowest_le; apply members_In; split; [exact Hd|congruence]|]. apply lowest_ge.
  - destruct F as (_ & Wi & _ & _ & Ti & _). pose proof Wi as (_ & Li). unfold pixelCount in Li. pose proof (typed_at t px d Ti ltac:(lia)) as I. unfold inty in I. lia.
  - intros p Hp. apply members_In in Hp as (Hp & Ep). destruct (d_in _ _ _ _ _ _ Dk p Hp) as (Rp & Lp & _).
    destruct (Z.eq_dec lbl # p e) as [E|E]; [apply (above_marker h lbl q r p IV Rp ltac:(lia)); congruence|].
    destruct (x_eaten _ _ _ _ _ _ _ _ _ _ _ _ _ X lbl # p Lp ltac:(congruence)) as (_ & (x & Hx & Rx & Ex & Vx)). rewrite Ep in Ex.
    destruct (Z1 x d Rx Rd ltac:(lia) ltac:(congruence)) as (_ & Ev). destruct (b_path _ _ _ _ _ _ _ _ _ IV p Rp ltac:(lia)) as (k0 & B & _ & _). destruct (bpath_walk _ _ _ _ B) as (d0 & Hd0 & E0 & _ & _).
    specialize (Vx Hk d0 Hd0 E0). pose proof (above_marker h lbl q r p IV Rp ltac:(lia) d0 Hd0 E0). lia.
Qed.
End Merge.

Lemma zone_merge h lbl q r D L b cur nb : binv t se s px m h lbl q r -> queued r cur -> 0 <= cur < N -> lbl # cur <> 0 ->
  (forall p, In p D <-> 0 <= p < N /\ lbl # p <> 0 /\ ~ queued r p) -> dok s px n (fun p => lbl # p) D h -> (forall p, 0 <= p < N -> 0 <= lbl # p <= n) -> L = Z.max h px # cur -> L <= tmax t ->
  (forall p, below se s px m L p -> In p D) -> src_ok s m lbl D -> zinv (fun p => lbl # p) D L b -> In nb D -> covers se s nb cur -> (bd_equ b) # (lbl # nb) <> (bd_equ b) # (lbl # cur) ->
  zR L lbl # nb lbl # cur /\ forall eo do, (eo = lbl # nb /\ do = lbl # cur) \/ (eo = lbl # cur /\ do = lbl # nb) -> data_wins k b (bd_equ b) # eo (bd_equ b) # do ->
    zQ (bd_equ b) # do (wrap te (data_value k L b (bd_equ b) # do)) /\ zW D (bd_equ b) # do (bd_equ b) # eo.
Proof.
  intros IV Hq Hc Hlc HD Dk Hl EL LM Bl Src X Hnb Cv Hne. destruct (d_in _ _ _ _ _ _ Dk nb Hnb) as (Rnb & Lnb & Vnb). assert (HL : h <= L) by lia. assert (Hlc' : 1 <= lbl # cur <= n) by (specialize (Hl cur Hc); lia).
  assert (Hm : m # cur = 0).
  { destruct (Z.eq_dec m # cur 0) as [E|E]; [exact E|exfalso]. pose proof (b_mark _ _ _ _ _ _ _ _ _ IV cur Hc E) as Ec. destruct (Z2 cur nb Hc E Cv) as [E2|E2].
    - pose proof (b_mark _ _ _ _ _ _ _ _ _ IV nb Rnb ltac:(congruence)) as En. congruence.
    - destruct (b_below _ _ _ _ _ _ _ _ _ IV cur) as (_ & Nq); [|contradiction]. apply below0; [exact Hc|exact E|lia]. }
  assert (HR : zR L lbl # nb lbl # cur).
  { destruct (b_path _ _ _ _ _ _ _ _ _ IV nb Rnb ltac:(lia)) as (k1 & B1 & _ & K1). destruct (b_path _ _ _ _ _ _ _ _ _ IV cur Hc Hlc) as (k2 & B2 & _ & K2).
    destruct (bpath_walk _ _ _ _ B1) as (d1 & Hd1 & E1 & _ & W1). destruct (bpath_walk _ _ _ _ B2) as (d2 & Hd2 & E2 & _ & W2). exists d1, d2. repeat (split; [first [assumption|lia]|]).
    apply (walk_mono k1 L) in W1; [|lia]. apply (walk_mono k2 L) in W2; [|lia]. eapply walk_trans; [exact W1|]. eapply walk_trans; [|apply walk_sym; exact W2]. apply walk_one; [apply Sy; exact Cv| |]; lia. }
  split; [exact HR|].
  (* every class has a marker that is done *)
  assert (Mk : forall o, o = lbl # nb \/ o = lbl # cur -> exists d, In d D /\ 0 <= d < N /\ m # d = (bd_equ b) # o).
  { intros o Ho. assert (H1 : 1 <= o <= n) by (destruct Ho as [->| ->]; lia).
    assert (H2 : exists d, In d D /\ m # d = o).
    { destruct Ho as [->| ->].
      - destruct (Src nb Rnb ltac:(lia)) as [E|H2]; [|exact H2]. exists nb. split; [exact Hnb|]. symmetry. apply (b_mark _ _ _ _ _ _ _ _ _ IV); assumption.
      - destruct (Src cur Hc Hlc) as [E|H2]; [contradiction|exact H2]. }
    destruct (Z.eq_dec (bd_equ b) # o o) as [E|E].
    - destruct H2 as (d & Hd & Ed). exists d. split; [exact Hd|]. split; [apply (proj1 (HD d) Hd)|congruence].
    - destruct (x_eaten _ _ _ _ _ _ _ _ _ _ _ _ _ X o H1 E) as (_ & (d & Hd & Rd & Ed & _)). eauto. }
  intros eo do Ho Wi.
  assert (Heo : eo = lbl # nb \/ eo = lbl # cur) by tauto. assert (Hdo : do = lbl # nb \/ do = lbl # cur) by tauto.
  assert (Ro : forall o, o = lbl # nb \/ o = lbl # cur -> 1 <= o <= n /\ is_root n b (bd_equ b) # o).
  { intros o Ho'. assert (H1 : 1 <= o <= n) by (destruct Ho' as [->| ->]; lia). split; [exact H1|]. split; [pose proof (x_pos _ _ _ _ _ _ _ _ _ _ _ _ _ X o H1); pose proof (x_rng _ _ _ _ _ _ _ _ _ _ _ _ _ X o ltac:(lia)); lia|apply (x_idem _ _ _ _ _ _ _ _ _ _ _ _ _ X); lia]. }
  destruct (Mk eo Heo) as (f & Df & Rf & Mf). destruct (Mk do Hdo) as (d & Dd & Rd & Md). destruct (Ro eo Heo) as (Heo' & RtF). destruct (Ro do Hdo) as (Hdo' & RtE).
  set (fr := (bd_equ b) # eo) in *. set (er := (bd_equ b) # do) in *.
  assert (Hfe : fr <> er) by (unfold fr, er; destruct Ho as [(-> & ->)|(-> & ->)]; congruence).
  pose proof (class_zone h lbl q r D L b IV HD Dk HL Bl X er d Dd Md RtE) as ZE. pose proof (class_zone h lbl q r D L b IV HD Dk HL Bl X fr f Df Mf RtF) as ZF.
  assert (Wk : walk L d f).
  { assert (Ref : zR L er fr).
    { assert (R1 : zR L do eo) by (destruct Ho as [(-> & ->)|(-> & ->)]; [apply zR_sym|]; exact HR).
      assert (R2 : er = do \/ zR L er do) by (apply (x_class _ _ _ _ _ _ _ _ _ _ _ _ _ X); [apply RtE|exact Hdo'|apply RtE]).
      assert (R3 : eo = fr \/ zR L eo fr) by (apply (x_class _ _ _ _ _ _ _ _ _ _ _ _ _ X); [exact Heo'|apply RtF|symmetry; apply RtF]).
      assert (R4 : zR L er eo) by (destruct R2 as [->|R2]; [exact R1|eapply zR_trans; eassumption]). destruct R3 as [<-|R3]; [exact R4|eapply zR_trans; eassumption]. }
    destruct Ref as (a & c & Ea & Ec & Na & Nc & Wk). destruct (walk_range _ _ _ Wk) as ((Ra & Va) & Rc & Vc). destruct (Z1 a d Ra Rd ltac:(lia) ltac:(congruence)) as (K1 & _). destruct (Z1 c f Rc Rf ltac:(lia) ltac:(congruence)) as (K2 & _).
    eapply walk_trans; [apply walk_sym; eapply walk_mono; [|exact K1]; exact Va|]. eapply walk_trans; [exact Wk|]. eapply walk_mono; [|exact K2]. exact Vc. }
  assert (ND : NoDup (members (fun p => lbl # p) (bd_equ b) D er ++ members (fun p => lbl # p) (bd_equ b) D fr)).
  { pose proof (d_nd _ _ _ _ _ _ Dk) as N0. assert (NF : forall x, NoDup (members (fun p => lbl # p) (bd_equ b) D x)) by (intros; apply NoDup_filter; exact N0).
    assert (Dj : forall x, In x (members (fun p => lbl # p) (bd_equ b) D er) -> ~ In x (members (fun p => lbl # p) (bd_equ b) D fr)) by (intros x H1 H2; apply members_In in H1, H2; destruct H1, H2; congruence).
    revert Dj. generalize (NF er). generalize (members (fun p => lbl # p) (bd_equ b) D er). intros l. induction l as [|x l IH]; intros Nl Dj; [apply NF|]. inversion Nl; subst. cbn [app]. constructor; [|apply IH; [assumption|intros; apply Dj; right; assumption]].
    rewrite in_app_iff. intros [H|H]; [contradiction|]. apply (Dj x); [left; reflexivity|exact H]. }
  assert (SzE : forall x, is_root n b x -> (bd_areas b) # x = size_of (members (fun p => lbl # p) (bd_equ b) D x)) by (intros x Hx; rewrite (x_area _ _ _ _ _ _ _ _ _ _ _ _ _ X x Hx); apply tot_count).
  split.
  - exists L, d, f. repeat (split; [first [assumption|lia|congruence]|]). split; [rewrite Mf; destruct RtF; lia|]. split; [congruence|]. split; [exact Wk|]. split; [exact LM|]. unfold data_value, data_wins in *. destruct k eqn:Ek.
    + exists (members (fun p => lbl # p) (bd_equ b) D er), (members (fun p => lbl # p) (bd_equ b) D fr). split; [exact ND|]. split; [exact ZE|]. split; [exact ZF|].
      destruct (x_vol _ _ _ _ _ _ _ _ _ _ _ _ _ X eq_refl er RtE) as (V1 & _). destruct (x_vol _ _ _ _ _ _ _ _ _ _ _ _ _ X eq_refl fr RtF) as (V2 & _). rewrite V1, V2 in *. auto.
    + exists (members (fun p => lbl # p) (bd_equ b) D er), (members (fun p => lbl # p) (bd_equ b) D fr). split; [exact ND|]. split; [exact ZE|]. split; [exact ZF|]. rewrite !SzE in * by assumption. auto.
    + rewrite <- Ek in X. pose proof (class_low h lbl q r D L b IV HD Dk Bl X er d Ek Dd Md RtE) as ME. pose proof (class_low h lbl q r D L b IV HD Dk Bl X fr f Ek Df Mf RtF) as MF. rewrite ME, MF in *. split; [reflexivity|]. split; [exact Wi|].
      intros p Wp. rewrite <- ME. rewrite (x_min _ _ _ _ _ _ _ _ _ _ _ _ _ X Ek er RtE). apply lowest_le. apply ZE. exact Wp.
  - exists f. repeat (split; [assumption|]). intros Ek d' Rd' Md'. unfold data_wins in Wi. rewrite Ek in Wi.
    rewrite (class_low h lbl q r D L b IV HD Dk Bl X er d Ek Dd Md RtE), (class_low h lbl q r D L b IV HD Dk Bl X fr f Ek Df Mf RtF) in Wi. destruct (Z1 d d' Rd Rd' ltac:(destruct RtE; lia) ltac:(congruence)) as (_ & Ev). lia.
Qed.

Lemma zone_run fuel g : (length px <= fuel)%nat -> (Z.to_nat n <= fuel)%nat -> n <> 0 ->
  let g0 := match g with None => None | Some g => Some (clear g) end in
  exists lbl q D L b g' stat last b', ext_process fuel k t t2 te se im markers g0 = Some (Some (lbl, b', g')) /\
    (exists q0, flood_init t px m = Some q0 /\ flood_loop fuel t se s px (FL m q0) = Some (Some (FL lbl q))) /\
    linv k t se s px m n zR zQ zW lbl q [] D L b g' stat (Some last) /\ In last D /\ length (bd_ext b') = Z.to_nat (n + 1) /\
    forall j, (bd_ext b') # j = put (bd_ext b) (bd_equ b) # (lbl # last) (last_value k te L b (bd_equ b) # (lbl # last)) j.
Proof. exact (process_run k t t2 te se im markers F T0 Hlt zR zQ zW zR_mono zR_sym zR_trans zW_mono zW_trans zone_merge fuel g). Qed.
End Zones.
