(** Proofs on the distance functions: slices and volumes. *)
From Verif Require Export Proofs.DistanceProofs.

Lemma online_dec n pos p : {online n pos p} + {~ online n pos p}.
Proof.
  destruct (in_dec Z.eq_dec p (map pos (zseq n))) as [I|I]; [left|right].
  - apply in_map_iff in I as (i & <- & Hi). apply zseq_In in Hi. exists i. auto.
  - intros (i & Hi & ->). apply I. apply in_map. apply zseq_In. exact Hi.
Qed.

Section Volume.
  Variables (t : ity) (s : dims).
  Hypothesis Hw : 0 < dw s.
  Hypothesis Hh : 0 < dh s.
  Hypothesis Hd : 0 < dd s.
  Let w := dw s.
  Let h := dh s.
  Let N := dw s * dh s * dd s.
  Let M := tmax t.

  Definition at_ (x y z : Z) : Z := z * h * w + y * w + x.

  Lemma at_inj x y z x' y' z' : 0 <= x < w -> 0 <= x' < w -> 0 <= y < h -> 0 <= y' < h ->
    at_ x y z = at_ x' y' z' -> x = x' /\ y = y' /\ z = z'.
  Proof.
    unfold at_. intros Hx Hx' Hy Hy' E. replace (z * h * w + y * w + x) with ((z * h + y) * w + x) in E by ring.
    replace (z' * h * w + y' * w + x') with ((z' * h + y') * w + x') in E by ring.
    assert (E1 : z * h + y = z' * h + y') by nia. assert (x = x') by nia.
    assert (z = z') by nia. assert (y = y') by nia. auto.
  Qed.
  Lemma at_range x y z : 0 <= x < w -> 0 <= y < h -> 0 <= z < dd s -> 0 <= at_ x y z < N.
  Proof.
    unfold at_, N. fold w h. intros Hx Hy Hz. replace (z * h * w + y * w + x) with ((z * h + y) * w + x) by ring.
    assert (0 <= z * h + y < dd s * h) by nia. split; [nia|]. replace (w * h * dd s) with (dd s * h * w) by ring. nia.
  Qed.

  Definition in_slice z p := exists x y, 0 <= x < w /\ 0 <= y < h /\ p = at_ x y z.

  Section Slice.
    Variables (next : Z -> Z) (back : Z -> Z -> Z) (alias : bool) (px : list Z) (z : Z).
    Hypothesis Hnext : next_ok M next.
    Hypothesis Hback : step_ok M back.
    Hypothesis Hpx : Z.of_nat (length px) = N.
    Hypothesis Hz : 0 <= z < dd s.

    (** The columns of a slice. *)
    Lemma columns_spec off a : (forall x, off x = z * h * w + x) -> Z.of_nat (length a) = N ->
      exists a', fold_opt (fun out x => column t next back alias px w h (off x) out) (zseq w) a = Some a' /\ Z.of_nat (length a') = N /\
        (forall p, ~ in_slice z p -> get a' p = get a p) /\
        forall x y, 0 <= x < w -> 0 <= y < h ->
          least (fun v => v = M \/ exists y', 0 <= y' < h /\ get (input alias px a) (at_ x y' z) = 0 /\ v = Z.abs (y - y')) (get a' (at_ x y z)).
    Proof.
      intros Hoff HL.
      destruct (fold_disjoint (fun a : list Z => a) (fun a => Z.of_nat (length a) = N) (fun out x => column t next back alias px w h (off x) out)
        (fun x p => online h (fun y => off x + y * w) p)
        (fun x a a' => forall i, 0 <= i < h -> least (fun v => v = M \/ exists j, 0 <= j < h /\ get (input alias px a) (off x + j * w) = 0 /\ v = Z.abs (i - j)) (get a' (off x + i * w)))
        (zseq w)) with (st := a) as (a' & E & L & U & Q).
      - apply zseq_NoDup.
      - intros c d p Hc Hd' (i & Hi & ->) (j & Hj & Ep). apply zseq_In in Hc, Hd'. rewrite !Hoff in Ep. assert (i = j) by nia. nia.
      - intros b c Hb Hc. apply zseq_In in Hc. apply (column_spec t N w h (off c) next back alias px); try assumption.
        rewrite Hoff. pose proof (at_range c 0 z ltac:(lia) ltac:(unfold h; lia) Hz). pose proof (at_range c (h - 1) z ltac:(lia) ltac:(unfold h; lia) Hz).
        unfold at_ in *. lia.
      - intros c a1 a1' b1 b1' H1 H2 HP i Hi. specialize (HP i Hi).
        rewrite <- H2 by (exists i; split; [exact Hi|reflexivity]).
        assert (EI : forall j, 0 <= j < h -> get (input alias px a1) (off c + j * w) = get (input alias px b1) (off c + j * w)).
        { intros j Hj. unfold input. destruct alias; [|reflexivity]. apply H1. exists j. split; [exact Hj|reflexivity]. }
        destruct HP as [HA HB]. split.
        + destruct HA as [HA|(j & Hj & Ej & Ev)]; [left; exact HA|]. right. exists j. rewrite <- EI by exact Hj. auto.
        + intros u [Hu|(j & Hj & Ej & Ev)]; [apply HB; left; exact Hu|]. apply HB. right. exists j. rewrite EI by exact Hj. auto.
      - exact HL.
      - exists a'. split; [exact E|]. split; [exact L|]. split.
        + intros p Hp. apply U. intros c Hc (i & Hi & ->). apply zseq_In in Hc. apply Hp. exists c, i. rewrite Hoff. unfold at_. repeat split; try lia.
        + intros x y Hx Hy. specialize (Q x ltac:(apply zseq_In; lia) y Hy). rewrite Hoff in Q. unfold at_.
          replace (z * h * w + x + y * w) with (z * h * w + y * w + x) in Q by ring. destruct Q as [QA QB]. split.
          * destruct QA as [QA|(j & Hj & Ej & Ev)]; [left; exact QA|right]. exists j. replace (z * h * w + x + j * w) with (z * h * w + j * w + x) in Ej by ring. auto.
          * intros u [Hu|(j & Hj & Ej & Ev)]; [apply QB; left; exact Hu|]. apply QB. right. exists j.
            replace (z * h * w + x + j * w) with (z * h * w + j * w + x) by ring. auto.
    Qed.

    (** The rows of a slice. *)
    Lemma rows_spec a : bounded (in_slice z) N M a ->
      exists a', fold_opt (fun out y => sweep (row_step t) (fun x => z * h * w + y * w + x) w out) (zseq h) a = Some a' /\ Z.of_nat (length a') = N /\
        (forall p, ~ in_slice z p -> get a' p = get a p) /\
        forall x y, 0 <= x < w -> 0 <= y < h ->
          least (fun v => exists x', 0 <= x' < w /\ v = get a (at_ x' y z) + Z.abs (x - x')) (get a' (at_ x y z)).
    Proof.
      intros HL.
      destruct (fold_disjoint (fun a : list Z => a) (bounded (in_slice z) N M) (fun out y => sweep (row_step t) (fun x => z * h * w + y * w + x) w out)
        (fun y p => online w (fun x => z * h * w + y * w + x) p)
        (fun y a a' => forall i, 0 <= i < w -> least (fun v => exists j, 0 <= j < w /\ v = get a (z * h * w + y * w + j) + Z.abs (i - j)) (get a' (z * h * w + y * w + i)))
        (zseq h)) with (st := a) as (a' & E & L & U & Q).
      - apply zseq_NoDup.
      - intros c d p Hc Hd' (i & Hi & ->) (j & Hj & Ep). apply zseq_In in Hc, Hd'. apply (at_inj i c z j d z) in Ep; tauto.
      - intros b c Hb Hc. apply zseq_In in Hc.
        destruct (sweep_spec N M w (row_step t) (fun x => z * h * w + c * w + x) (row_step_ok t)
          (fun i Hi => at_range i c z Hi Hc Hz) (fun i j _ _ E => proj1 (Z.add_cancel_l i j _) E) b) as (b' & E & B' & U & Q).
        + split; [apply Hb|]. intros p (i & Hi & ->). apply Hb. exists i, c. auto.
        + exists b'. split; [exact E|]. split; [|split; [exact U|exact Q]]. split; [apply B'|].
          intros p (x & y & Hx & Hy & ->). destruct (Z.eq_dec y c) as [->|Ny].
          * apply B'. exists x. auto.
          * rewrite U; [apply Hb; exists x, y; auto|]. intros (i & Hi & Ep). apply (at_inj x y z i c z) in Ep; try assumption. tauto.
      - intros c a1 a1' b1 b1' H1 H2 HP i Hi. specialize (HP i Hi).
        rewrite <- H2 by (exists i; split; [exact Hi|reflexivity]). destruct HP as [(j & Hj & Ej) HB]. split.
        + exists j. split; [exact Hj|]. rewrite <- H1 by (exists j; split; [exact Hj|reflexivity]). exact Ej.
        + intros u (j' & Hj' & ->). apply HB. exists j'. split; [exact Hj'|]. rewrite H1 by (exists j'; split; [exact Hj'|reflexivity]). reflexivity.
      - exact HL.
      - exists a'. split; [exact E|]. split; [apply L|]. split.
        + intros p Hp. apply U. intros c Hc (i & Hi & ->). apply zseq_In in Hc. apply Hp. exists i, c. auto.
        + intros x y Hx Hy. apply (Q y); [apply zseq_In; lia|exact Hx].
    Qed.

    (** The two. *)
    Lemma slice_spec a : alias = false -> Z.of_nat (length a) = N ->
      exists a', option_bind
          (fold_opt (fun out x => column t next back alias px w h (z * h * w + x) out) (zseq w) a)
          (fold_opt (fun out y => sweep (row_step t) (fun x => z * h * w + y * w + x) w out) (zseq h)) = Some a' /\
        Z.of_nat (length a') = N /\ (forall p, ~ in_slice z p -> get a' p = get a p) /\
        forall x y, 0 <= x < w -> 0 <= y < h ->
          least (fun v => v = M \/ exists x' y', 0 <= x' < w /\ 0 <= y' < h /\ get px (at_ x' y' z) = 0 /\ v = Z.abs (x - x') + Z.abs (y - y')) (get a' (at_ x y z)).
    Proof.
      intros Ha HL. pose proof (tmax_pos t) as HM.
      destruct (columns_spec (fun x => z * h * w + x) a ltac:(reflexivity) HL) as (b & -> & Lb & Ub & Qb). cbn [option_bind].
      assert (Bb : forall x y, 0 <= x < w -> 0 <= y < h -> 0 <= get b (at_ x y z) <= M).
      { intros x y Hx Hy. destruct (Qb x y Hx Hy) as [HA HB]. split; [|apply HB; left; reflexivity].
        destruct HA as [->|(j & _ & _ & ->)]; [unfold M; lia|lia]. }
      destruct (rows_spec b) as (a' & E & L & U & Q).
      { split; [exact Lb|]. intros p (x & y & Hx & Hy & ->). apply Bb; assumption. }
      exists a'. split; [exact E|]. split; [exact L|]. split.
      { intros p Hp. rewrite U, Ub by exact Hp. reflexivity. }
      intros x y Hx Hy. destruct (Q x y Hx Hy) as [(x1 & Hx1 & E1) LQ]. destruct (Qb x1 y Hx1 Hy) as [HA HB].
      assert (LM : get a' (at_ x y z) <= M).
      { specialize (LQ (get b (at_ x y z) + Z.abs (x - x)) ltac:(exists x; split; [exact Hx|reflexivity])). specialize (Bb x y Hx Hy). lia. }
      unfold input in *. rewrite Ha in *. split.
      - destruct HA as [HA|(y1 & Hy1 & Z1 & Ey)]; [left; lia|]. right. exists x1, y1. repeat split; (assumption || lia).
      - intros u [->|(x2 & y2 & Hx2 & Hy2 & Z2 & ->)]; [exact LM|].
        destruct (Qb x2 y Hx2 Hy) as [_ HB2]. specialize (HB2 (Z.abs (y - y2)) ltac:(right; exists y2; repeat split; (assumption || lia))).
        specialize (LQ (get b (at_ x2 y z) + Z.abs (x - x2)) ltac:(exists x2; split; [exact Hx2|reflexivity])). lia.
    Qed.
  End Slice.

  (** All the slices. *)
  Lemma slices_spec next back px a : next_ok M next -> step_ok M back -> Z.of_nat (length px) = N -> Z.of_nat (length a) = N ->
    exists a', fold_opt (fun out z => option_bind
          (fold_opt (fun out x => column t next back false px w h (z * h * w + x) out) (zseq w) out)
          (fold_opt (fun out y => sweep (row_step t) (fun x => z * h * w + y * w + x) w out) (zseq h))) (zseq (dd s)) a = Some a' /\
      Z.of_nat (length a') = N /\
      forall x y z, 0 <= x < w -> 0 <= y < h -> 0 <= z < dd s ->
        least (fun v => v = M \/ exists x' y', 0 <= x' < w /\ 0 <= y' < h /\ get px (at_ x' y' z) = 0 /\ v = Z.abs (x - x') + Z.abs (y - y')) (get a' (at_ x y z)).
  Proof.
    intros Hn Hb Hpx HL.
    destruct (fold_disjoint (fun a : list Z => a) (fun a => Z.of_nat (length a) = N) (fun out z => option_bind
          (fold_opt (fun out x => column t next back false px w h (z * h * w + x) out) (zseq w) out)
          (fold_opt (fun out y => sweep (row_step t) (fun x => z * h * w + y * w + x) w out) (zseq h))) in_slice
      (fun z _ a' => forall x y, 0 <= x < w -> 0 <= y < h ->
        least (fun v => v = M \/ exists x' y', 0 <= x' < w /\ 0 <= y' < h /\ get px (at_ x' y' z) = 0 /\ v = Z.abs (x - x') + Z.abs (y - y')) (get a' (at_ x y z)))
      (zseq (dd s))) with (st := a) as (a' & E & L & U & Q).
    - apply zseq_NoDup.
    - intros c d p _ _ (x & y & Hx & Hy & ->) (x' & y' & Hx' & Hy' & Ep). apply at_inj in Ep; tauto.
    - intros b c Hb' Hc. apply zseq_In in Hc. apply slice_spec; try assumption. reflexivity.
    - intros c a1 a1' b1 b1' H1 H2 HP x y Hx Hy. rewrite <- H2 by (exists x, y; auto). apply HP; assumption.
    - exact HL.
    - exists a'. split; [exact E|]. split; [exact L|]. intros x y z Hx Hy Hz. apply (Q z); [apply zseq_In; lia|exact Hx|exact Hy].
  Qed.

  (** The lines across the slices. *)
  Definition in_line y p := exists x z, 0 <= x < w /\ 0 <= z < dd s /\ p = at_ x y z.
  Lemma across_spec a : bounded (fun p => 0 <= p < N) N M a ->
    exists a', fold_opt (fun out y => fold_opt (fun out x => sweep (row_step t) (fun z => y * w + x + z * h * w) (dd s) out) (zseq w) out) (zseq h) a = Some a' /\
      bounded (fun p => 0 <= p < N) N M a' /\
      forall x y z, 0 <= x < w -> 0 <= y < h -> 0 <= z < dd s ->
        least (fun v => exists z', 0 <= z' < dd s /\ v = get a (at_ x y z') + Z.abs (z - z')) (get a' (at_ x y z)).
  Proof.
    intros HL.
    destruct (fold_disjoint (fun a : list Z => a) (bounded (fun p => 0 <= p < N) N M)
      (fun out y => fold_opt (fun out x => sweep (row_step t) (fun z => y * w + x + z * h * w) (dd s) out) (zseq w) out) in_line
      (fun y a a' => forall x z, 0 <= x < w -> 0 <= z < dd s ->
        least (fun v => exists z', 0 <= z' < dd s /\ v = get a (at_ x y z') + Z.abs (z - z')) (get a' (at_ x y z)))
      (zseq h)) with (st := a) as (a' & E & L & U & Q).
    - apply zseq_NoDup.
    - intros c d p Hc Hd' (x & z & Hx & Hz & ->) (x' & z' & Hx' & Hz' & Ep). apply zseq_In in Hc, Hd'. apply at_inj in Ep; tauto.
    - intros b y Hb Hy. apply zseq_In in Hy.
      assert (PR : forall x z, 0 <= x < w -> 0 <= z < dd s -> 0 <= y * w + x + z * h * w < N).
      { intros x z Hx Hz. pose proof (at_range x y z Hx Hy Hz) as R. unfold at_ in R. lia. }
      destruct (fold_disjoint (fun a : list Z => a) (bounded (fun p => 0 <= p < N) N M)
        (fun out x => sweep (row_step t) (fun z => y * w + x + z * h * w) (dd s) out) (fun x p => online (dd s) (fun z => y * w + x + z * h * w) p)
        (fun x a a' => forall i, 0 <= i < dd s ->
          least (fun v => exists j, 0 <= j < dd s /\ v = get a (y * w + x + j * h * w) + Z.abs (i - j)) (get a' (y * w + x + i * h * w)))
        (zseq w)) with (st := b) as (b' & E & L & U & Q).
      + apply zseq_NoDup.
      + intros c d p Hc Hd' (i & Hi & ->) (j & Hj & Ep). apply zseq_In in Hc, Hd'.
        assert (E' : at_ c y i = at_ d y j) by (unfold at_; lia). apply at_inj in E'; tauto.
      + intros b1 x Hb1 Hx. apply zseq_In in Hx.
        destruct (sweep_spec N M (dd s) (row_step t) (fun z => y * w + x + z * h * w) (row_step_ok t) (fun i Hi => PR x i Hx Hi)) with (a := b1) as (b' & E & B' & U & Q).
        * intros i j Hi Hj Ep. assert (E' : at_ x y i = at_ x y j) by (unfold at_; lia). apply at_inj in E'; tauto.
        * split; [apply Hb1|]. intros p (i & Hi & ->). apply Hb1. apply PR; assumption.
        * exists b'. split; [exact E|]. split; [|split; [exact U|exact Q]]. split; [apply B'|]. intros p Hp.
          destruct (online_dec (dd s) (fun z => y * w + x + z * h * w) p) as [On|Off]; [apply B'; exact On|rewrite U by exact Off; apply Hb1; exact Hp].
      + intros c a1 a1' b1 b1' H1 H2 HP i Hi. specialize (HP i Hi).
        rewrite <- H2 by (exists i; split; [exact Hi|reflexivity]). destruct HP as [(j & Hj & Ej) HB]. split.
        * exists j. split; [exact Hj|]. rewrite <- H1 by (exists j; split; [exact Hj|reflexivity]). exact Ej.
        * intros u (j' & Hj' & ->). apply HB. exists j'. split; [exact Hj'|]. rewrite H1 by (exists j'; split; [exact Hj'|reflexivity]). reflexivity.
      + exact Hb.
      + exists b'. split; [exact E|]. split; [exact L|]. split.
        * intros p Hp. apply U. intros x Hx (i & Hi & ->). apply zseq_In in Hx. apply Hp. exists x, i. unfold at_. repeat split; lia.
        * assert (AT : forall x z, y * w + x + z * h * w = at_ x y z) by (intros; unfold at_; ring).
          intros x z Hx Hz. specialize (Q x ltac:(apply zseq_In; lia) z Hz). rewrite AT in Q. destruct Q as [(j & Hj & Ej) QB]. split.
          -- exists j. rewrite AT in Ej. auto.
          -- intros u (j' & Hj' & ->). apply QB. exists j'. rewrite AT. auto.
    - intros c a1 a1' b1 b1' H1 H2 HP x z Hx Hz. specialize (HP x z Hx Hz).
      rewrite <- H2 by (exists x, z; auto). destruct HP as [(j & Hj & Ej) HB]. split.
      + exists j. split; [exact Hj|]. rewrite <- H1 by (exists x, j; auto). exact Ej.
      + intros u (j' & Hj' & ->). apply HB. exists j'. split; [exact Hj'|]. rewrite H1 by (exists x, j'; auto). reflexivity.
    - exact HL.
    - exists a'. split; [exact E|]. split; [exact L|]. intros x y z Hx Hy Hz. apply (Q y); [apply zseq_In; lia|exact Hx|exact Hz].
  Qed.
End Volume.
