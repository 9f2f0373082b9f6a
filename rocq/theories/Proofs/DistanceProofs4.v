(** Proofs on the distance functions: the functions. *)
From Verif Require Export Proofs.DistanceProofs3 Proofs.MorphFilters.

(** ** Images *)

Definition all_pos (s : dims) : Prop := 0 < dw s /\ 0 < dh s /\ 0 < dd s.

Lemma at_rng s x y z : all_pos s -> 0 <= x < dw s -> 0 <= y < dh s -> 0 <= z < dd s -> 0 <= at_ s x y z < dw s * dh s * dd s.
Proof. intros (P1 & P2 & P3). apply (at_range UINT8 s P1 P2 P3). Qed.
Lemma at_inj' s x y z x' y' z' : all_pos s -> 0 <= x < dw s -> 0 <= x' < dw s -> 0 <= y < dh s -> 0 <= y' < dh s ->
  at_ s x y z = at_ s x' y' z' -> x = x' /\ y = y' /\ z = z'.
Proof. intros (P1 & P2 & P3). apply (at_inj UINT8 s P1 P2). Qed.
Lemma at_voxel s x y z : at_ s x y z = voxel_offset (dw s) (dh s) x y z.
Proof. unfold at_, voxel_offset. ring. Qed.

Lemma pixel_get im x y z v : wf_img im -> (pixel_is im x y z v <-> inside (sz im) x y z /\ get (pixs im) (at_ (sz im) x y z) = v).
Proof.
  intros (_ & L). unfold pixel_is. split; intros (Hi & E); (split; [exact Hi|]); rewrite at_voxel in *.
  - apply znth_rd. exact E.
  - rewrite (rd_znth 0); [rewrite E; reflexivity|]. rewrite L. apply inside_range. exact Hi.
Qed.

Lemma distance_map_get D M im out : wf_img im -> all_pos (sz im) -> Z.of_nat (length out) = dw (sz im) * dh (sz im) * dd (sz im) ->
  (forall x y z, inside (sz im) x y z ->
    least (fun d => d = M \/ exists x' y' z', inside (sz im) x' y' z' /\ get (pixs im) (at_ (sz im) x' y' z') = 0 /\ D (x, y, z) (x', y', z') d) (get out (at_ (sz im) x y z))) ->
  forall im', sz im' = sz im -> distance_map D M im (Img (sz im') out).
Proof.
  intros W _ L H im' ES. assert (W' : wf_img (Img (sz im') out)). { split; cbn [sz pixs]; rewrite ES; [apply W|exact L]. }
  split; [exact ES|]. split; [exact W'|]. intros x y z o Ho. apply (pixel_get _ _ _ _ _ W') in Ho as (Hi & <-). cbn [sz pixs] in *. rewrite ES in *.
  destruct (H x y z Hi) as [HA HB]. split.
  - destruct HA as [HA|(x' & y' & z' & I' & Z' & HD)]; [left; exact HA|]. right. exists x', y', z'. split; [apply pixel_get; auto|exact HD].
  - intros u [Hu|(x' & y' & z' & Hp & HD)]; [apply HB; left; exact Hu|]. apply HB. right. apply (pixel_get _ _ _ _ _ W) in Hp as (I' & Z'). exists x', y', z'. auto.
Qed.

Lemma inf1_zero im p : wf_img im -> 0 <= p < dw (sz im) * dh (sz im) * dd (sz im) ->
  (get (pixs (pw1 (fun v => px_inf v 1) im)) p = 0 <-> get (pixs im) p = 0).
Proof.
  intros (_ & L) Hp. cbn [pw1 pixs]. unfold znth at 1. rewrite rd_map, (rd_znth 0) by lia. cbn [option_map]. unfold px_inf.
  destruct (Z.ltb_spec (get (pixs im) p) 1); lia.
Qed.

(** ** The cross *)

Lemma same_size_sz a b : sz a = sz b -> same_size a b = true.
Proof. intros E. unfold same_size, width, height, depth. rewrite E, !Z.eqb_refl. reflexivity. Qed.

Theorem distCross_spec t2 imIn imOut : wf_img imIn -> wf_img imOut -> sz imOut = sz imIn -> all_pos (sz imIn) ->
  exists out, distCross t2 imIn imOut = Some (1, out) /\ distance_map city2 (tmax t2) imIn out.
Proof.
  intros W W' ES P. unfold distCross. rewrite same_size_sz by congruence. cbn [negb].
  set (s := sz imIn) in *. set (px := pixs (pw1 (fun v => px_inf v 1) imIn)).
  assert (Lpx : Z.of_nat (length px) = dw s * dh s * dd s). { unfold px. cbn. rewrite map_length. apply W. }
  destruct (slices_spec t2 s (proj1 P) (proj1 (proj2 P)) (proj2 (proj2 P)) (cross_next t2) (cross_back t2) px (pixs imOut) (cross_next_ok t2) (cross_back_ok t2)) as (a' & E & L & Q).
  - exact Lpx.
  - destruct W' as [_ L']. rewrite ES in L'. exact L'.
  - exists (Img (sz imOut) a').
    assert (E' : fold_opt (distCross_slice t2 s px) (zseq (dd s)) (pixs imOut) = Some a') by exact E.
    rewrite E'. split; [reflexivity|]. apply distance_map_get; [exact W|exact P|exact L| |exact ES].
    intros x y z (Hx & Hy & Hz). destruct (Q x y z Hx Hy Hz) as [HA HB]. fold s. split.
    + destruct HA as [HA|(x' & y' & Hx' & Hy' & Z' & Ed)]; [left; exact HA|]. right. exists x', y', z. split; [split; [exact Hx'|split; [exact Hy'|exact Hz]]|].
      split; [apply inf1_zero; [exact W|apply at_rng; assumption|exact Z']|]. split; [reflexivity|exact Ed].
    + intros u [Hu|(x' & y' & z' & (Hx' & Hy' & Hz') & Z' & <- & Ed)]; [apply HB; left; exact Hu|]. apply HB. right. exists x', y'.
      split; [exact Hx'|]. split; [exact Hy'|]. split; [apply inf1_zero; [exact W|apply at_rng; assumption|exact Z']|exact Ed].
Qed.

Theorem distCross3d_spec t2 imIn imOut : t2 <> UINT32 -> wf_img imIn -> wf_img imOut -> sz imOut = sz imIn -> all_pos (sz imIn) ->
  exists out, distCross3d t2 imIn imOut = Some (1, out) /\ distance_map city3 (tmax t2) imIn out.
Proof.
  intros NT W W' ES P. unfold distCross3d. rewrite same_size_sz by congruence. cbn [negb]. pose proof (tmax_pos t2) as HM.
  set (s := sz imIn) in *. set (px := pixs (pw1 (fun v => px_inf v 1) imIn)).
  assert (Lpx : Z.of_nat (length px) = dw s * dh s * dd s). { unfold px. cbn. rewrite map_length. apply W. }
  destruct (slices_spec t2 s (proj1 P) (proj1 (proj2 P)) (proj2 (proj2 P)) (cross3d_next t2) (cross3d_back t2) px (pixs imOut) (cross3d_next_ok t2 NT) (cross3d_back_ok t2 NT)) as (b & E & L & Q).
  - exact Lpx.
  - destruct W' as [_ L']. rewrite ES in L'. exact L'.
  - assert (E' : fold_opt (distCross3d_slice t2 s px) (zseq (dd s)) (pixs imOut) = Some b) by exact E.
    rewrite E'. cbn [option_bind].
    assert (AT : forall p, 0 <= p < dw s * dh s * dd s -> exists x y z, inside s x y z /\ p = at_ s x y z).
    { intros p Hp. destruct P as (P1 & P2 & P3). exists (p mod dw s), (p / dw s mod dh s), (p / dw s / dh s).
      pose proof (Z.mod_pos_bound p (dw s) P1). pose proof (Z.mod_pos_bound (p / dw s) (dh s) P2). pose proof (Z_div_mod_eq_full p (dw s)). pose proof (Z_div_mod_eq_full (p / dw s) (dh s)).
      assert (D1 : 0 <= p / dw s < dh s * dd s) by (split; [apply Z.div_pos; lia|apply Z.div_lt_upper_bound; nia]).
      assert (D2 : 0 <= p / dw s / dh s < dd s) by (split; [apply Z.div_pos; lia|apply Z.div_lt_upper_bound; nia]).
      split; [repeat split; lia|]. unfold at_. nia. }
    assert (BB : bounded (fun p => 0 <= p < dw s * dh s * dd s) (dw s * dh s * dd s) (tmax t2) b).
    { split; [exact L|]. intros p Hp. destruct (AT p Hp) as (x & y & z & (Hx & Hy & Hz) & ->). destruct (Q x y z Hx Hy Hz) as [HA HB].
      split; [|apply HB; left; reflexivity]. destruct HA as [->|(x' & y' & _ & _ & _ & ->)]; lia. }
    destruct (across_spec t2 s (proj1 P) (proj1 (proj2 P)) (proj2 (proj2 P)) b BB) as (a' & E2 & B' & Q2).
    rewrite E2. cbn [option_bind]. exists (Img (sz imOut) a'). split; [reflexivity|].
    apply distance_map_get; [exact W|exact P|apply B'| |exact ES].
    intros x y z (Hx & Hy & Hz). fold s in Hx, Hy, Hz |- *. destruct (Q2 x y z Hx Hy Hz) as [(z1 & Hz1 & E1) LQ].
    assert (LM : get a' (at_ s x y z) <= tmax t2) by (apply B'; apply at_rng; assumption).
    destruct (Q x y z1 Hx Hy Hz1) as [HA HB]. split.
    + destruct HA as [HA|(x' & y' & Hx' & Hy' & Z' & Ed)]; [left; lia|]. right. exists x', y', z1. split; [split; [exact Hx'|split; [exact Hy'|exact Hz1]]|].
      split; [apply inf1_zero; [exact W|apply at_rng; assumption|exact Z']|]. cbn. lia.
    + intros u [->|(x' & y' & z' & (Hx' & Hy' & Hz') & Z' & ->)]; [exact LM|].
      destruct (Q x y z' Hx Hy Hz') as [_ HB']. fold s in Hx', Hy', Hz'.
      specialize (HB' (Z.abs (x - x') + Z.abs (y - y'))).
      assert (get b (at_ s x y z') <= Z.abs (x - x') + Z.abs (y - y')).
      { apply HB'. right. exists x', y'. split; [exact Hx'|]. split; [exact Hy'|]. split; [|reflexivity].
        apply inf1_zero; [exact W|apply at_rng; assumption|exact Z']. }
      specialize (LQ (get b (at_ s x y z') + Z.abs (z - z')) ltac:(exists z'; split; [exact Hz'|reflexivity])). lia.
Qed.

(** ** The square *)

Section Square.
  Variables (t : ity) (s : dims).
  Hypothesis P : all_pos s.
  Let w := dw s.
  Let h := dh s.
  Let N := dw s * dh s * dd s.
  Let K := Z.max w h.
  Let M := tmax t.

  Definition sq_F (tmp : list Z) (y z x i : Z) : Z := Z.max (Z.abs (x - i)) (get tmp (at_ s i y z)).

  Lemma square_row tmp y z out sv tv : Z.of_nat (length tmp) = N -> (forall x, 0 <= x < w -> 0 <= get tmp (at_ s x y z) <= M) ->
    0 <= y < h -> 0 <= z < dd s -> Z.of_nat (length out) = N -> Z.of_nat (length sv) = K -> Z.of_nat (length tv) = K ->
    exists out' sv' tv', envelope (square_f tmp (z * h * w + y * w)) (square_sep tmp (z * h * w + y * w)) (square_val t tmp (z * h * w + y * w))
        (fun u => z * h * w + y * w + u) w (out, sv, tv) = Some (out', sv', tv') /\
      Z.of_nat (length out') = N /\ Z.of_nat (length sv') = K /\ Z.of_nat (length tv') = K /\
      (forall p, ~ online w (fun u => z * h * w + y * w + u) p -> get out' p = get out p) /\
      forall x, 0 <= x < w -> least (fun v => exists j, 0 <= j < w /\ v = sq_F tmp y z x j) (get out' (at_ s x y z)).
  Proof.
    intros Lt Bt Hy Hz Lo Ls Lv. destruct P as (P1 & P2 & P3).
    assert (RD : forall i, 0 <= i < w -> rd tmp (z * h * w + y * w + i) = Some (get tmp (at_ s i y z))).
    { intros i Hi. apply rd_znth. rewrite Lt. apply at_rng; assumption. }
    apply (envelope_spec w N K (sq_F tmp y z)); try assumption.
    - unfold K. lia.
    - intros x i Hx Hi. unfold square_f. rewrite RD by exact Hi. cbn [option_bind]. f_equal. unfold sq_F. destruct (Z.ltb_spec (Z.abs (x - i)) (get tmp (at_ s i y z))); lia.
    - intros i u x y' Hi Hu Hx Hy'. unfold sq_F. lia.
    - intros i u y' Hi Hu Hy' _. unfold square_sep. rewrite !RD by lia. cbn [option_bind]. eexists. split; [reflexivity|]. intros x Hx. unfold sq_F.
      pose proof (Bt i ltac:(lia)). pose proof (Bt u ltac:(lia)). set (gi := get tmp (at_ s i y z)) in *. set (gu := get tmp (at_ s u y z)) in *.
      rewrite Z.quot_div_nonneg by lia. pose proof (Z_div_mod_eq_full (i + u) 2). pose proof (Z.mod_pos_bound (i + u) 2 ltac:(lia)).
      set (m := (i + u) / 2) in *. destruct (Z.leb_spec gi gu).
      + destruct (Z.ltb_spec (i + gu) m); lia.
      + destruct (Z.geb_spec (u - gi) m); lia.
    - intros x i Hx Hi Hmin. unfold square_val. rewrite RD by exact Hi. cbn [option_bind]. f_equal. specialize (Hmin x Hx). unfold sq_F in *.
      pose proof (Bt x Hx). pose proof (Bt i Hi). rewrite wrap_pos by (unfold M in *; lia). destruct (Z.ltb_spec (Z.abs (x - i)) (get tmp (at_ s i y z))); lia.
    - intros i Hi. apply (at_rng s i y z); assumption.
    - intros i j _ _ E. exact (proj1 (Z.add_cancel_l i j _) E).
  Qed.

  Lemma square_slice_spec alias px tmp out sv tv z : 0 <= z < dd s -> Z.of_nat (length px) = N -> Z.of_nat (length tmp) = N ->
    Z.of_nat (length out) = N -> Z.of_nat (length sv) = K -> Z.of_nat (length tv) = K ->
    exists tmp' out' sv' tv', distSquare_slice t s alias px (tmp, out, sv, tv) z = Some (tmp', out', sv', tv') /\
      Z.of_nat (length tmp') = N /\ Z.of_nat (length out') = N /\ Z.of_nat (length sv') = K /\ Z.of_nat (length tv') = K /\
      (forall p, ~ in_slice s z p -> get out' p = get out p) /\
      forall x y, 0 <= x < w -> 0 <= y < h ->
        least (fun v => v = M \/ exists x' y', 0 <= x' < w /\ 0 <= y' < h /\ get (if alias then out else px) (at_ s x' y' z) = 0 /\ v = Z.max (Z.abs (x - x')) (Z.abs (y - y')))
          (get out' (at_ s x y z)).
  Proof.
    intros Hz Lp Lt Lo Ls Lv. pose proof P as (P1 & P2 & P3). pose proof (tmax_pos t) as HM. unfold distSquare_slice.
    set (inp := if alias then out else px). assert (Li : Z.of_nat (length inp) = N) by (unfold inp; destruct alias; assumption).
    destruct (columns_spec t s P1 P2 P3 (cross_next t) (cross_back t) false inp z (cross_next_ok t) (cross_back_ok t) Li Hz (fun x => z * h * w + x) tmp ltac:(reflexivity) Lt) as (b & E & Lb & _ & Qb).
    fold w h. fold w h in E. rewrite E. cbn [option_bind].
    assert (Bb : forall x y, 0 <= x < w -> 0 <= y < h -> 0 <= get b (at_ s x y z) <= M).
    { intros x y Hx Hy. destruct (Qb x y Hx Hy) as [HA HB]. split; [|apply HB; left; reflexivity].
      destruct HA as [->|(j & _ & _ & ->)]; [unfold M; lia|lia]. }
    destruct (fold_disjoint (fun st : list Z * list Z * list Z => fst (fst st))
      (fun st => Z.of_nat (length (fst (fst st))) = N /\ Z.of_nat (length (snd (fst st))) = K /\ Z.of_nat (length (snd st)) = K)
      (fun st y => let offset := z * h * w + y * w in
        envelope (square_f b offset) (square_sep b offset) (square_val t b offset) (fun u => offset + u) w st)
      (fun y p => online w (fun u => z * h * w + y * w + u) p)
      (fun y _ a' => forall x, 0 <= x < w -> least (fun v => exists j, 0 <= j < w /\ v = sq_F b y z x j) (get a' (at_ s x y z)))
      (zseq h)) with (st := (out, sv, tv)) as (((o1 & s1) & t1) & E1 & (L1 & L2 & L3) & U & Q).
    - apply zseq_NoDup.
    - intros c d p Hc Hd' (i & Hi & ->) (j & Hj & Ep). apply zseq_In in Hc, Hd'. apply (at_inj' s i c z j d z) in Ep; tauto.
    - intros ((o & s0) & t0) y (L1 & L2 & L3) Hy. apply zseq_In in Hy. cbn [fst snd] in *.
      destruct (square_row b y z o s0 t0 Lb (fun x Hx => Bb x y Hx Hy) Hy Hz L1 L2 L3) as (o' & s' & t' & E' & L1' & L2' & L3' & U' & Q').
      exists (o', s', t'). split; [exact E'|]. cbn [fst snd]. repeat split; try assumption; apply Q'; assumption.
    - intros y a1 a1' b1 b1' H1 H2 HP x Hx. rewrite <- H2 by (exists x; split; [exact Hx|reflexivity]). apply HP. exact Hx.
    - cbn. auto.
    - cbn [fst snd] in *. rewrite E1. cbn [option_bind]. exists b, o1, s1, t1. split; [reflexivity|]. split; [exact Lb|]. split; [exact L1|]. split; [exact L2|]. split; [exact L3|]. split.
      + intros p Hp. apply U. intros y Hy (i & Hi & ->). apply zseq_In in Hy. apply Hp. exists i, y. auto.
      + intros x y Hx Hy. destruct (Q y ltac:(apply zseq_In; lia) x Hx) as [(j & Hj & Ej) LQ].
        assert (LM : get o1 (at_ s x y z) <= M).
        { specialize (LQ (sq_F b y z x x) ltac:(exists x; split; [exact Hx|reflexivity])). specialize (Bb x y Hx Hy). unfold sq_F in LQ. lia. }
        destruct (Qb j y Hj Hy) as [HA HB]. split.
        * destruct HA as [HA|(y' & Hy' & Z' & Ey)]; [left; unfold sq_F in *; lia|]. right. exists j, y'.
          split; [exact Hj|]. split; [exact Hy'|]. split; [exact Z'|]. unfold sq_F in *. lia.
        * intros u [->|(x' & y' & Hx' & Hy' & Z' & ->)]; [exact LM|].
          destruct (Qb x' y Hx' Hy) as [_ HB']. assert (get b (at_ s x' y z) <= Z.abs (y - y')) by (apply HB'; right; exists y'; auto).
          specialize (LQ (sq_F b y z x x') ltac:(exists x'; split; [exact Hx'|reflexivity])). unfold sq_F in LQ. lia.
  Qed.
End Square.

Theorem distSquare_spec junk t2 alias imIn imOut : wf_img imIn -> wf_img imOut -> sz imOut = sz imIn -> all_pos (sz imIn) -> (alias = true -> imOut = imIn) ->
  exists out, distSquare junk t2 alias imIn imOut = Some (1, out) /\ distance_map chess2 (tmax t2) imIn out.
Proof.
  intros W W' ES P HA. unfold distSquare. rewrite same_size_sz by congruence. cbn [negb]. pose proof P as (P1 & P2 & P3).
  set (s := sz imIn) in *. set (K := Z.max (dw s) (dh s)).
  destruct (wr_Some (repeat 0 (Z.to_nat K)) 0 0) as [v Ev]. { rewrite repeat_length. lia. }
  rewrite Ev. cbn [option_bind]. assert (Lv : Z.of_nat (length v) = K) by (rewrite (wr_length _ _ _ _ Ev), repeat_length; lia).
  assert (Li : Z.of_nat (length (pixs imIn)) = dw s * dh s * dd s) by apply W.
  assert (Lo : Z.of_nat (length (pixs imOut)) = dw s * dh s * dd s). { destruct W' as [_ L']. rewrite ES in L'. exact L'. }
  assert (SRC : forall p, 0 <= p < dw s * dh s * dd s -> get (if alias then pixs imOut else pixs imIn) p = get (pixs imIn) p).
  { intros p _. destruct alias; [rewrite HA by reflexivity|]; reflexivity. }
  destruct (fold_disjoint (fun st : list Z * list Z * list Z * list Z => snd (fst (fst st)))
    (fun st => Z.of_nat (length (fst (fst (fst st)))) = dw s * dh s * dd s /\ Z.of_nat (length (snd (fst (fst st)))) = dw s * dh s * dd s /\
      Z.of_nat (length (snd (fst st))) = K /\ Z.of_nat (length (snd st)) = K)
    (distSquare_slice t2 s alias (pixs imIn)) (in_slice s)
    (fun z a a' => forall x y, 0 <= x < dw s -> 0 <= y < dh s ->
        least (fun v => v = tmax t2 \/ exists x' y', 0 <= x' < dw s /\ 0 <= y' < dh s /\ get (if alias then a else pixs imIn) (at_ s x' y' z) = 0 /\ v = Z.max (Z.abs (x - x')) (Z.abs (y - y')))
          (get a' (at_ s x y z)))
    (zseq (dd s))) with (st := (pixs (new_img junk imIn), pixs imOut, v, v)) as ((((tm & o) & s1) & t1) & E & (L1 & L2 & L3 & L4) & U & Q).
  - apply zseq_NoDup.
  - intros c d p _ _ (x & y & Hx & Hy & ->) (x' & y' & Hx' & Hy' & Ep). apply (at_inj' s x y c x' y' d P) in Ep; tauto.
  - intros (((tm & o) & s0) & t0) z (L1 & L2 & L3 & L4) Hz. apply zseq_In in Hz. cbn [fst snd] in *.
    destruct (square_slice_spec t2 s P alias (pixs imIn) tm o s0 t0 z Hz Li L1 L2 L3 L4) as (tm' & o' & s' & t' & E & L1' & L2' & L3' & L4' & U & Q).
    exists (tm', o', s', t'). split; [exact E|]. cbn [fst snd]. split; [auto|]. split; [exact U|exact Q].
  - intros z a1 a1' b1 b1' H1 H2 HP x y Hx Hy. rewrite <- H2 by (exists x, y; auto).
    assert (EI : forall x' y', 0 <= x' < dw s -> 0 <= y' < dh s -> get (if alias then a1 else pixs imIn) (at_ s x' y' z) = get (if alias then b1 else pixs imIn) (at_ s x' y' z)).
    { intros x' y' Hx' Hy'. destruct alias; [|reflexivity]. apply H1. exists x', y'. auto. }
    destruct (HP x y Hx Hy) as [HA1 HB1]. split.
    + destruct HA1 as [HA1|(x' & y' & Hx' & Hy' & Z' & Ed)]; [left; exact HA1|right]. exists x', y'. rewrite <- EI by assumption. auto.
    + intros u [Hu|(x' & y' & Hx' & Hy' & Z' & Ed)]; [apply HB1; left; exact Hu|]. apply HB1. right. exists x', y'. rewrite EI by assumption. auto.
  - cbn [fst snd]. rewrite Lv. split; [|auto]. exact (proj2 (wf_junk junk imIn W)).
  - cbn [fst snd] in *. rewrite E. cbn [option_bind]. exists (Img (sz imOut) o). split; [reflexivity|].
    apply distance_map_get; [exact W|exact P|exact L2| |exact ES]. fold s.
    intros x y z (Hx & Hy & Hz). destruct (Q z ltac:(apply zseq_In; lia) x y Hx Hy) as [QA QB]. split.
    + destruct QA as [QA|(x' & y' & Hx' & Hy' & Z' & Ed)]; [left; exact QA|]. right. exists x', y', z. split; [split; [exact Hx'|split; [exact Hy'|exact Hz]]|].
      split; [rewrite SRC in Z' by (apply at_rng; assumption); exact Z'|]. split; [reflexivity|exact Ed].
    + intros u [Hu|(x' & y' & z' & (Hx' & Hy' & Hz') & Z' & <- & Ed)]; [apply QB; left; exact Hu|]. apply QB. right. exists x', y'.
      split; [exact Hx'|]. split; [exact Hy'|]. split; [rewrite SRC by (apply at_rng; assumption); exact Z'|exact Ed].
Qed.
