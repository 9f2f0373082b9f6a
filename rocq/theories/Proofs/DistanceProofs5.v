(** Proofs on the distance functions: squared Euclidean distance. *)
From Verif Require Export Proofs.DistanceProofs4.

(** One line: parabolas. *)
Section Parabolas.
  Variables (t : ity) (n N K : Z) (c : Z -> Z) (sq : Z -> option Z) (pos : Z -> Z).
  Hypothesis Hn : 0 < n <= 46341.
  Hypothesis HK : n <= K.
  Hypothesis Hsq : forall i, 0 <= i < n -> sq i = Some (c i).
  Hypothesis Hc : forall i, 0 <= i < n -> 0 <= c i.
  Hypothesis Hfit : forall x, 0 <= x < n -> exists j, 0 <= j < n /\ (x - j) * (x - j) + c j <= tmax t.
  Hypothesis Hpos : forall i, 0 <= i < n -> 0 <= pos i < N.
  Hypothesis Hinj : forall i j, 0 <= i < n -> 0 <= j < n -> pos i = pos j -> i = j.

  Lemma parabolas_spec out s v : Z.of_nat (length out) = N -> Z.of_nat (length s) = K -> Z.of_nat (length v) = K ->
    exists out' s' v', envelope (euclid_f sq) (euclid_sep sq) (euclid_val t sq) pos n (out, s, v) = Some (out', s', v') /\
      Z.of_nat (length out') = N /\ Z.of_nat (length s') = K /\ Z.of_nat (length v') = K /\
      (forall p, ~ online n pos p -> get out' p = get out p) /\
      forall i, 0 <= i < n -> least (fun v => exists j, 0 <= j < n /\ v = (i - j) * (i - j) + c j) (get out' (pos i)).
  Proof.
    apply (envelope_spec n N K (fun x i => (x - i) * (x - i) + c i)); try assumption; try (clear - Hn; lia).
    - intros x i Hx Hi. unfold euclid_f. rewrite Hsq by exact Hi. reflexivity.
    - intros i u x y Hi Hu Hx Hy. clear - Hi Hx. intros H.
      assert (2 * x * (u - i) <= 2 * y * (u - i)) by nia. nia.
    - intros i u y Hi Hu Hy H. unfold euclid_sep. rewrite !Hsq by lia. unfold int_prod.
      replace ((u * u <? 2 ^ 31) && (- 2 ^ 31 <=? u * u)) with true.
      2:{ symmetry. apply andb_true_intro. assert (0 <= u * u <= 46340 * 46340) by (clear - Hi Hu Hn; nia). split; [apply Z.ltb_lt|apply Z.leb_le]; clear - H0; lia. }
      cbn [option_bind]. eexists. split; [reflexivity|]. intros x Hx. set (A := u * u - i * i + c u - c i).
      assert (HA : 2 * y * (u - i) <= A) by (unfold A; clear - H; nia).
      assert (A0 : 0 <= A) by (clear - HA Hy Hi; nia).
      rewrite Z.quot_div_nonneg by (clear - A0 Hi; lia). split; intros Hle.
      + apply Z.div_le_lower_bound; [clear - Hi; lia|]. unfold A. clear - Hle. nia.
      + assert (2 * (u - i) * x <= A).
        { pose proof (Z.mul_div_le A (2 * (u - i)) ltac:(clear - Hi; lia)) as D.
          assert (2 * (u - i) * x <= 2 * (u - i) * (A / (2 * (u - i)))) by (apply Z.mul_le_mono_nonneg_l; [clear - Hi; lia|exact Hle]). clear - D H0. lia. }
        unfold A in H0. clear - H0. nia.
    - intros x i Hx Hi Hmin. unfold euclid_val, euclid_f. rewrite Hsq by exact Hi. cbn [option_bind]. f_equal. apply wrap_pos.
      destruct (Hfit x Hx) as (j & Hj & Ej). specialize (Hmin j Hj). cbv beta in Hmin. specialize (Hc i Hi). pose proof (Z.square_nonneg (x - i)) as SQ. split; [clear - Hc SQ; lia|]. clear - Hmin Ej. lia.
  Qed.
End Parabolas.

Section Euclidean.
  Variables (t : ity) (s : dims).
  Hypothesis P : all_pos s.
  Let w := dw s.
  Let h := dh s.
  Let d := dd s.
  Let N := dw s * dh s * dd s.
  Let M := tmax t.

  (** The columns of all the slices. *)
  Lemma all_columns alias px a : t <> UINT32 -> Z.of_nat (length px) = N -> Z.of_nat (length a) = N ->
    exists a', fold_opt (fun out z => fold_opt (fun out x => column t (cross3d_next t) (euclid_back t) alias px w h (z * (w * h) + x) out) (zseq w) out) (zseq d) a = Some a' /\
      Z.of_nat (length a') = N /\
      forall x y z, inside s x y z ->
        least (fun v => v = M \/ exists y', 0 <= y' < h /\ get (input alias px a) (at_ s x y' z) = 0 /\ v = Z.abs (y - y')) (get a' (at_ s x y z)).
  Proof.
    intros NT Lp La. pose proof P as (P1 & P2 & P3).
    destruct (fold_disjoint (fun a : list Z => a) (fun a => Z.of_nat (length a) = N)
      (fun out z => fold_opt (fun out x => column t (cross3d_next t) (euclid_back t) alias px w h (z * (w * h) + x) out) (zseq w) out) (in_slice s)
      (fun z a a' => forall x y, 0 <= x < w -> 0 <= y < h ->
        least (fun v => v = M \/ exists y', 0 <= y' < h /\ get (input alias px a) (at_ s x y' z) = 0 /\ v = Z.abs (y - y')) (get a' (at_ s x y z)))
      (zseq d)) with (st := a) as (a' & E & L & _ & Q).
    - apply zseq_NoDup.
    - intros c c' p _ _ (x & y & Hx & Hy & ->) (x' & y' & Hx' & Hy' & Ep). apply (at_inj' s x y c x' y' c' P) in Ep; tauto.
    - intros b z Lb Hz. apply zseq_In in Hz.
      apply (columns_spec t s P1 P2 P3 (cross3d_next t) (euclid_back t) alias px z (cross3d_next_ok t NT) (euclid_back_ok t NT) Lp Hz (fun x => z * (w * h) + x) b); [|exact Lb].
      intros x. unfold w, h. ring.
    - intros z a1 a1' b1 b1' H1 H2 HP x y Hx Hy. rewrite <- H2 by (exists x, y; auto).
      assert (EI : forall y', 0 <= y' < h -> get (input alias px a1) (at_ s x y' z) = get (input alias px b1) (at_ s x y' z)).
      { intros y' Hy'. unfold input. destruct alias; [|reflexivity]. apply H1. exists x, y'. auto. }
      destruct (HP x y Hx Hy) as [HA HB]. split.
      + destruct HA as [HA|(y' & Hy' & Z' & Ed)]; [left; exact HA|right]. exists y'. rewrite <- EI by assumption. auto.
      + intros u [Hu|(y' & Hy' & Z' & Ed)]; [apply HB; left; exact Hu|]. apply HB. right. exists y'. rewrite EI by assumption. auto.
    - exact La.
    - exists a'. split; [exact E|]. split; [exact L|]. intros x y z (Hx & Hy & Hz). apply (Q z); [apply zseq_In; exact Hz|exact Hx|exact Hy].
  Qed.

  Definition vecs (K : Z) (st : list Z * list Z * list Z) : Prop :=
    Z.of_nat (length (fst (fst st))) = N /\ Z.of_nat (length (snd (fst st))) = K /\ Z.of_nat (length (snd st)) = K.

  (** The rows. *)
  Lemma all_rows tmp st : w <= 46341 -> t <> UINT32 -> Z.of_nat (length tmp) = N -> vecs w st ->
    (forall x y z, inside s x y z -> 0 <= get tmp (at_ s x y z) /\ get tmp (at_ s x y z) * get tmp (at_ s x y z) < 2 ^ 31) ->
    (forall x y z, inside s x y z -> exists x', 0 <= x' < w /\ (x - x') * (x - x') + get tmp (at_ s x' y z) * get tmp (at_ s x' y z) <= M) ->
    exists st', fold_opt (fun st z => fold_opt (fun st y =>
        let offset := z * (w * h) + y * w in
        let sq := row_square t tmp offset in
        envelope (euclid_f sq) (euclid_sep sq) (euclid_val t sq) (fun x => offset + x) w st) (zseq h) st) (zseq d) st = Some st' /\ vecs w st' /\
      forall x y z, inside s x y z -> least (fun v => exists x', 0 <= x' < w /\ v = (x - x') * (x - x') + get tmp (at_ s x' y z) * get tmp (at_ s x' y z)) (get (fst (fst st')) (at_ s x y z)).
  Proof.
    intros Hw NT Lt Hst Bd Fit. pose proof P as (P1 & P2 & P3).
    assert (AT : forall x y z, z * (w * h) + y * w + x = at_ s x y z) by (intros; unfold at_, w, h; ring).
    destruct (fold_disjoint (fun st : list Z * list Z * list Z => fst (fst st)) (vecs w)
      (fun st z => fold_opt (fun st y =>
        let offset := z * (w * h) + y * w in
        let sq := row_square t tmp offset in
        envelope (euclid_f sq) (euclid_sep sq) (euclid_val t sq) (fun x => offset + x) w st) (zseq h) st) (in_slice s)
      (fun z _ a' => forall x y, 0 <= x < w -> 0 <= y < h -> least (fun v => exists x', 0 <= x' < w /\ v = (x - x') * (x - x') + get tmp (at_ s x' y z) * get tmp (at_ s x' y z)) (get a' (at_ s x y z)))
      (zseq d)) with (st := st) as (st' & E & L & _ & Q).
    - apply zseq_NoDup.
    - intros c c' p _ _ (x & y & Hx & Hy & ->) (x' & y' & Hx' & Hy' & Ep). apply (at_inj' s x y c x' y' c' P) in Ep; tauto.
    - intros st1 z Hst1 Hz. apply zseq_In in Hz.
      destruct (fold_disjoint (fun st : list Z * list Z * list Z => fst (fst st)) (vecs w)
        (fun st y => let offset := z * (w * h) + y * w in
          let sq := row_square t tmp offset in
          envelope (euclid_f sq) (euclid_sep sq) (euclid_val t sq) (fun x => offset + x) w st)
        (fun y p => online w (fun x => z * (w * h) + y * w + x) p)
        (fun y _ a' => forall x, 0 <= x < w -> least (fun v => exists x', 0 <= x' < w /\ v = (x - x') * (x - x') + get tmp (at_ s x' y z) * get tmp (at_ s x' y z)) (get a' (z * (w * h) + y * w + x)))
        (zseq h)) with (st := st1) as (st' & E & L & U & Q).
      + apply zseq_NoDup.
      + intros c c' p Hc Hc' (i & Hi & ->) (j & Hj & Ep). apply zseq_In in Hc, Hc'. rewrite !AT in Ep. apply (at_inj' s i c z j c' z P) in Ep; tauto.
      + intros ((o & s0) & v0) y (L1 & L2 & L3) Hy. apply zseq_In in Hy. cbn [fst snd] in *.
        destruct (parabolas_spec t w N w (fun i => get tmp (at_ s i y z) * get tmp (at_ s i y z)) (row_square t tmp (z * (w * h) + y * w)) (fun x => z * (w * h) + y * w + x)) with (out := o) (s := s0) (v := v0)
          as (o' & s' & v' & E & L1' & L2' & L3' & U & Q); try assumption.
        * split; [exact P1|exact Hw].
        * apply Z.le_refl.
        * intros i Hi. unfold row_square. rewrite AT, (rd_znth 0) by (rewrite Lt; apply at_rng; assumption). cbn [option_bind].
          destruct (Bd i y z ltac:(repeat split; assumption || apply Hi || apply Hy || apply Hz)) as [B0 B1].
          assert (E : int_prod (get tmp (at_ s i y z)) (get tmp (at_ s i y z)) = Some (get tmp (at_ s i y z) * get tmp (at_ s i y z))).
          { unfold int_prod. set (g := get tmp (at_ s i y z)) in *. replace ((g * g <? 2 ^ 31) && (- 2 ^ 31 <=? g * g)) with true; [reflexivity|].
            symmetry. apply andb_true_intro. split; [apply Z.ltb_lt; exact B1|apply Z.leb_le]. assert (0 <= g * g) by (clear - B0; nia). clear - H. lia. }
          unfold pix_prod. destruct t; congruence.
        * intros i Hi. apply Z.square_nonneg.
        * intros x Hx. apply Fit. repeat split; apply Hx || apply Hy || apply Hz.
        * intros i Hi. cbv beta. rewrite AT. apply at_rng; assumption.
        * intros i j _ _ E. exact (proj1 (Z.add_cancel_l i j _) E).
        * exists (o', s', v'). split; [exact E|]. cbn [fst snd]. split; [split; [exact L1'|split; [exact L2'|exact L3']]|]. split; [exact U|exact Q].
      + intros y a1 a1' b1 b1' H1 H2 HP x Hx. rewrite <- H2 by (exists x; split; [exact Hx|reflexivity]). apply HP. exact Hx.
      + exact Hst1.
      + exists st'. split; [exact E|]. split; [exact L|]. split.
        * intros p Hp. apply U. intros y Hy (i & Hi & ->). apply zseq_In in Hy. apply Hp. exists i, y. rewrite AT. auto.
        * intros x y Hx Hy. rewrite <- AT. apply (Q y); [apply zseq_In; exact Hy|exact Hx].
    - intros z a1 a1' b1 b1' H1 H2 HP x y Hx Hy. rewrite <- H2 by (exists x, y; auto). apply HP; assumption.
    - exact Hst.
    - exists st'. split; [exact E|]. split; [exact L|]. intros x y z (Hx & Hy & Hz). apply (Q z); [apply zseq_In; exact Hz|exact Hx|exact Hy].
  Qed.

  (** The lines across the slices. *)
  Lemma all_lines tmp st : d <= 46341 -> d <= w -> Z.of_nat (length tmp) = N -> vecs w st ->
    (forall x y z, inside s x y z -> 0 <= get tmp (at_ s x y z) <= M) ->
    exists st', fold_opt (fun st y => fold_opt (fun st x =>
        let offset := y * w + x in
        let sq := depth_square tmp offset (w * h) in
        envelope (euclid_f sq) (euclid_sep sq) (euclid_val t sq) (fun z => offset + z * (w * h)) d st) (zseq w) st) (zseq h) st = Some st' /\ vecs w st' /\
      forall x y z, inside s x y z -> least (fun v => exists z', 0 <= z' < d /\ v = (z - z') * (z - z') + get tmp (at_ s x y z')) (get (fst (fst st')) (at_ s x y z)).
  Proof.
    intros Hd Hdw Lt Hst Bd. pose proof P as (P1 & P2 & P3).
    assert (AT : forall x y z, y * w + x + z * (w * h) = at_ s x y z) by (intros; unfold at_, w, h; ring).
    destruct (fold_disjoint (fun st : list Z * list Z * list Z => fst (fst st)) (vecs w)
      (fun st y => fold_opt (fun st x =>
        let offset := y * w + x in
        let sq := depth_square tmp offset (w * h) in
        envelope (euclid_f sq) (euclid_sep sq) (euclid_val t sq) (fun z => offset + z * (w * h)) d st) (zseq w) st) (in_line s)
      (fun y _ a' => forall x z, 0 <= x < w -> 0 <= z < d -> least (fun v => exists z', 0 <= z' < d /\ v = (z - z') * (z - z') + get tmp (at_ s x y z')) (get a' (at_ s x y z)))
      (zseq h)) with (st := st) as (st' & E & L & _ & Q).
    - apply zseq_NoDup.
    - intros c c' p Hc Hc' (x & z & Hx & Hz & ->) (x' & z' & Hx' & Hz' & Ep). apply zseq_In in Hc, Hc'. apply (at_inj' s x c z x' c' z' P) in Ep; tauto.
    - intros st1 y Hst1 Hy. apply zseq_In in Hy.
      destruct (fold_disjoint (fun st : list Z * list Z * list Z => fst (fst st)) (vecs w)
        (fun st x => let offset := y * w + x in
          let sq := depth_square tmp offset (w * h) in
          envelope (euclid_f sq) (euclid_sep sq) (euclid_val t sq) (fun z => offset + z * (w * h)) d st)
        (fun x p => online d (fun z => y * w + x + z * (w * h)) p)
        (fun x _ a' => forall z, 0 <= z < d -> least (fun v => exists z', 0 <= z' < d /\ v = (z - z') * (z - z') + get tmp (at_ s x y z')) (get a' (y * w + x + z * (w * h))))
        (zseq w)) with (st := st1) as (st' & E & L & U & Q).
      + apply zseq_NoDup.
      + intros c c' p Hc Hc' (i & Hi & ->) (j & Hj & Ep). apply zseq_In in Hc, Hc'. rewrite !AT in Ep. apply (at_inj' s c y i c' y j P) in Ep; tauto.
      + intros ((o & s0) & v0) x (L1 & L2 & L3) Hx. apply zseq_In in Hx. cbn [fst snd] in *.
        destruct (parabolas_spec t d N w (fun i => get tmp (at_ s x y i)) (depth_square tmp (y * w + x) (w * h)) (fun z => y * w + x + z * (w * h))) with (out := o) (s := s0) (v := v0)
          as (o' & s' & v' & E & L1' & L2' & L3' & U & Q); try assumption.
        * split; [exact P3|exact Hd].
        * intros i Hi. unfold depth_square. rewrite AT. apply rd_znth. rewrite Lt. apply at_rng; assumption.
        * intros i Hi. apply Bd. repeat split; apply Hx || apply Hy || apply Hi.
        * intros z Hz. exists z. split; [exact Hz|]. destruct (Bd x y z) as [_ B1]; [repeat split; apply Hx || apply Hy || apply Hz|]. fold M. clear - B1. lia.
        * intros i Hi. cbv beta. rewrite AT. apply at_rng; assumption.
        * intros i j Hi Hj E. cbv beta in E. rewrite !AT in E. apply (at_inj' s x y i x y j P) in E; tauto.
        * exists (o', s', v'). split; [exact E|]. cbn [fst snd]. split; [split; [exact L1'|split; [exact L2'|exact L3']]|]. split; [exact U|exact Q].
      + intros x a1 a1' b1 b1' H1 H2 HP z Hz. rewrite <- H2 by (exists z; split; [exact Hz|reflexivity]). apply HP. exact Hz.
      + exact Hst1.
      + exists st'. split; [exact E|]. split; [exact L|]. split.
        * intros p Hp. apply U. intros x Hx (i & Hi & ->). apply zseq_In in Hx. apply Hp. exists x, i. rewrite AT. auto.
        * intros x z Hx Hz. rewrite <- AT. apply (Q x); [apply zseq_In; exact Hx|exact Hz].
    - intros y a1 a1' b1 b1' H1 H2 HP x z Hx Hz. rewrite <- H2 by (exists x, z; auto). apply HP; assumption.
    - exact Hst.
    - exists st'. split; [exact E|]. split; [exact L|]. intros x y z (Hx & Hy & Hz). apply (Q y); [apply zseq_In; exact Hy|exact Hx|exact Hz].
  Qed.
End Euclidean.

Theorem distanceEuclidean_spec t2 alias imIn imOut : t2 <> UINT32 -> wf_img imIn -> wf_img imOut -> sz imOut = sz imIn -> all_pos (sz imIn) -> (alias = true -> imOut = imIn) ->
  dw (sz imIn) <= 46341 -> dd (sz imIn) <= dw (sz imIn) ->
  (forall x y z, inside (sz imIn) x y z -> exists x' y', pixel_is imIn x' y' z 0 /\ (x - x') * (x - x') + (y - y') * (y - y') <= tmax t2) ->
  (t2 = UINT16 -> forall x y z, inside (sz imIn) x y z -> exists y', pixel_is imIn x y' z 0 /\ Z.abs (y - y') <= 46340) ->
  exists out, distanceEuclidean t2 alias imIn imOut = Some (1, out) /\ distance_map euclid3 (tmax t2) imIn out.
Proof.
  intros NT W W' ES P HA Hw Hdw Near Col. unfold distanceEuclidean. rewrite same_size_sz by congruence. cbn [negb]. pose proof P as (P1 & P2 & P3). pose proof (tmax_pos t2) as HM.
  set (s := sz imIn) in *. set (M := tmax t2) in *.
  assert (Li : Z.of_nat (length (pixs imIn)) = dw s * dh s * dd s) by apply W.
  assert (Lo : Z.of_nat (length (pixs imOut)) = dw s * dh s * dd s). { destruct W' as [_ L']. rewrite ES in L'. exact L'. }
  assert (SRC : forall p, get (input alias (pixs imIn) (pixs imOut)) p = get (pixs imIn) p).
  { intros p. unfold input. destruct alias; [rewrite HA by reflexivity|]; reflexivity. }
  destruct (all_columns t2 s P alias (pixs imIn) (pixs imOut) NT Li Lo) as (tmp & -> & Lt & Qc). cbn [option_bind]. fold M in Qc.
  assert (Bc : forall x y z, inside s x y z -> 0 <= get tmp (at_ s x y z) <= M).
  { intros x y z Hi. destruct (Qc x y z Hi) as [QA QB]. split; [|apply QB; left; reflexivity]. destruct QA as [->|(y' & _ & _ & ->)]; lia. }
  assert (Lc : forall x y z y', inside s x y z -> pixel_is imIn x y' z 0 -> get tmp (at_ s x y z) <= Z.abs (y - y')).
  { intros x y z y' Hi Hp. apply pixel_get in Hp as ((_ & Hy' & _) & Z'); [|exact W]. apply Qc; [exact Hi|]. right. exists y'. rewrite SRC. auto. }
  set (v := repeat 0 (Z.to_nat (dw s))). assert (Lv : Z.of_nat (length v) = dw s) by (unfold v; rewrite repeat_length; lia).
  destruct (all_rows t2 s P tmp (tmp, v, v) Hw NT Lt) as (((tmp2 & s2) & v2) & E2 & V2 & Qr).
  { split; [exact Lt|]. split; exact Lv. }
  { intros x y z Hi. destruct (Bc x y z Hi) as [B0 B1]. split; [exact B0|]. unfold M in B1.
    assert (CASE : get tmp (at_ s x y z) <= 46340).
    { assert (DEC : {t2 = UINT16} + {t2 <> UINT16}) by decide equality. destruct DEC as [E16|N16].
      - destruct (Col E16 x y z Hi) as (y' & Hp & Hy'). specialize (Lc x y z y' Hi Hp). lia.
      - assert (tmax t2 <= 46340) by (destruct t2; cbn; try lia; congruence). lia. }
    assert (46340 * 46340 < 2 ^ 31) by reflexivity. nia. }
  { intros x y z Hi. destruct (Near x y z Hi) as (x' & y' & Hp & Hd). exists x'. pose proof Hp as ((Hx' & Hy' & Hz') & _). split; [exact Hx'|].
    assert (Hi' : inside s x' y z) by (destruct Hi as (? & ? & ?); repeat split; tauto).
    specialize (Lc x' y z y' Hi' Hp). specialize (Bc x' y z Hi'). unfold M in *. nia. }
  cbv zeta in E2. rewrite E2. cbn [option_bind]. cbn [fst snd] in Qr.
  assert (Br : forall x y z, inside s x y z ->
    least (fun v => exists x' y', pixel_is imIn x' y' z 0 /\ v = (x - x') * (x - x') + (y - y') * (y - y')) (get tmp2 (at_ s x y z)) /\ 0 <= get tmp2 (at_ s x y z) <= M).
  { intros x y z Hi. destruct (Qr x y z Hi) as [(x1 & Hx1 & E1) LQ]. destruct (Near x y z Hi) as (x' & y' & Hp & Hd).
    assert (LB : forall x' y', pixel_is imIn x' y' z 0 -> get tmp2 (at_ s x y z) <= (x - x') * (x - x') + (y - y') * (y - y')).
    { intros x2 y2 Hp2. pose proof Hp2 as ((Hx2 & Hy2 & Hz2) & _). assert (Hi2 : inside s x2 y z) by (destruct Hi as (? & ? & ?); repeat split; tauto).
      specialize (LQ _ (ex_intro _ x2 (conj Hx2 eq_refl))). specialize (Lc x2 y z y2 Hi2 Hp2). specialize (Bc x2 y z Hi2). nia. }
    assert (Hi1 : inside s x1 y z) by (destruct Hi as (? & ? & ?); repeat split; tauto).
    specialize (LB x' y' Hp) as LM. split; [split|].
    - destruct (Qc x1 y z Hi1) as [QA _]. destruct QA as [QA|(y1 & Hy1 & Z1 & Ey)].
      + exfalso. rewrite QA in E1. pose proof (Z.square_nonneg (x - x1)). assert (127 * M <= M * M) by (apply Z.mul_le_mono_nonneg_r; lia). lia.
      + exists x1, y1. split; [apply pixel_get; [exact W|]; split; [destruct Hi1 as (? & ? & ?); repeat split; tauto|rewrite SRC in Z1; exact Z1]|].
        rewrite E1, Ey. f_equal. apply Z.abs_square.
    - intros u (x2 & y2 & Hp2 & ->). apply LB. exact Hp2.
    - pose proof (Z.square_nonneg (x - x1)). pose proof (Z.square_nonneg (get tmp (at_ s x1 y z))). lia. }
  destruct V2 as (L2 & Ls2 & Lv2). cbn [fst snd] in *.
  destruct (all_lines t2 s P tmp2 (tmp2, s2, v2)) as (((o & s3) & v3) & E3 & V3 & Ql).
  { lia. } { exact Hdw. } { exact L2. } { split; [exact L2|split; [exact Ls2|exact Lv2]]. } { intros x y z Hi. apply Br. exact Hi. }
  cbv zeta in E3. rewrite E3. cbn [option_bind fst snd] in *. exists (Img (sz imOut) o). split; [reflexivity|].
  apply distance_map_get; [exact W|exact P|apply V3| |exact ES]. fold s.
  intros x y z Hi. destruct (Ql x y z Hi) as [(z1 & Hz1 & E1) LQ]. split.
  - right. assert (Hi1 : inside s x y z1) by (destruct Hi as (? & ? & ?); repeat split; tauto).
    destruct (Br x y z1 Hi1) as [[(x' & y' & Hp & Ed) _] _]. apply pixel_get in Hp as (I' & Z'); [|exact W]. exists x', y', z1. split; [exact I'|]. split; [exact Z'|]. cbn. lia.
  - intros u [->|(x' & y' & z' & I' & Z' & ->)].
    + destruct (Br x y z Hi) as [_ B]. specialize (LQ ((z - z) * (z - z) + get tmp2 (at_ s x y z))). assert (get o (at_ s x y z) <= (z - z) * (z - z) + get tmp2 (at_ s x y z)) by (apply LQ; exists z; split; [apply Hi|reflexivity]). lia.
    + assert (Hi' : inside s x y z') by (destruct Hi as (? & ? & ?), I' as (? & ? & ?); repeat split; tauto).
      destruct (Br x y z' Hi') as [[_ B] _]. specialize (B ((x - x') * (x - x') + (y - y') * (y - y'))).
      assert (get tmp2 (at_ s x y z') <= (x - x') * (x - x') + (y - y') * (y - y')) by (apply B; exists x', y'; split; [apply pixel_get; auto|reflexivity]).
      assert (get o (at_ s x y z) <= (z - z') * (z - z') + get tmp2 (at_ s x y z')) by (apply LQ; exists z'; split; [apply I'|reflexivity]). lia.
Qed.
