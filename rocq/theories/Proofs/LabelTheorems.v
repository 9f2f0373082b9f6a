(** The labels of an image: from offsets to pixels. *)
From Verif Require Export Proofs.LabelProofs Proofs.GeodesicFilters.

Definition cmp_rel (cmp : Z -> Z -> bool) (v u : Z) : Prop := cmp v u = true.

Section Image.
Context (cmp : Z -> Z -> bool) (Hcmp : forall a b, cmp a b = cmp b a) (se : strelt) (im : img).
Context (Hw : wf_img im) (Hs : int_sized (sz im)) (Hp : int_points se) (HP : planar se (sz im)) (Hy : symmetric_se se).
Notation s := (sz im).
Notation vo := (voxel_offset (dw s) (dh s)).
Notation stp := (lstep cmp se s (pixs im)).
Notation cn := (conn cmp se s (pixs im)).
Notation lk := (linked se (cmp_rel cmp) im).

Lemma lstep_sym p q : stp p q -> stp q p.
Proof.
  intros ((x & y & z & x' & y' & z' & I & I' & -> & -> & S) & C). split; [|rewrite Hcmp; exact C].
  exists x', y', z', x, y, z. split; [exact I'|]. split; [exact I|]. split; [reflexivity|]. split; [reflexivity|]. apply (sees_sym se s); assumption.
Qed.

Lemma linked_inside x0 y0 z0 x y z : lk x0 y0 z0 x y z -> inside s x0 y0 z0 /\ inside s x y z.
Proof. intros L. induction L as [v P|x y z u x' y' z' v L IH P P' S R]; [destruct P; auto|]. split; [apply IH|apply P']. Qed.

Lemma linked_conn x0 y0 z0 x y z : lk x0 y0 z0 x y z -> cn (vo x0 y0 z0) (vo x y z).
Proof.
  intros L. induction L as [v P|x y z u x' y' z' v L IH P P' S R]; [constructor|]. eapply conn_next; [exact IH|].
  destruct P as [I P], P' as [I' P']. split; [exists x', y', z', x, y, z; auto|]. rewrite (znth_rd 0 _ _ _ P), (znth_rd 0 _ _ _ P'). exact R.
Qed.

Lemma conn_linked x0 y0 z0 q : inside s x0 y0 z0 -> cn (vo x0 y0 z0) q -> forall x y z, inside s x y z -> q = vo x y z -> lk x0 y0 z0 x y z.
Proof.
  intros I0 C. induction C as [|q r C IH ((x' & y' & z' & x & y & z & I' & I & -> & -> & S) & R)]; intros a b c Hi E.
  - destruct (voxel_inj s _ _ _ _ _ _ I0 Hi E) as (<- & <- & <-). destruct (pixel_exists im x0 y0 z0 Hw I0) as (v & P). econstructor; exact P.
  - destruct (voxel_inj s _ _ _ _ _ _ I' Hi E) as (<- & <- & <-). destruct (pixel_exists im x y z Hw I) as (u & P), (pixel_exists im x' y' z' Hw I') as (v & P').
    apply linked_next with x y z u v; auto. destruct P as [_ P], P' as [_ P']. rewrite (znth_rd 0 _ _ _ P), (znth_rd 0 _ _ _ P') in R. exact R.
Qed.

Lemma linked_trans x0 y0 z0 x1 y1 z1 x2 y2 z2 : lk x0 y0 z0 x1 y1 z1 -> lk x1 y1 z1 x2 y2 z2 -> lk x0 y0 z0 x2 y2 z2.
Proof. intros A B. induction B as [v P|x y z u x' y' z' v B IH P P' S R]; [exact A|]. econstructor; eauto. Qed.

Lemma linked_sym x0 y0 z0 x y z : lk x0 y0 z0 x y z -> lk x y z x0 y0 z0.
Proof.
  intros L. destruct (linked_inside _ _ _ _ _ _ L) as [I0 I]. eapply conn_linked; [exact I| |exact I0|reflexivity].
  apply conn_sym; [exact lstep_sym|]. apply linked_conn. exact L.
Qed.

(** The pixel at an offset. *)
Lemma small_dims : small s.
Proof. apply int_small. exact Hs. Qed.

Lemma unoff seeds : (forall c, In c seeds -> 0 <= c < dw s * dh s * dd s) ->
  exists l, map (scan_pos s) l = seeds /\ forall x y z, In (x, y, z) l -> inside s x y z.
Proof.
  induction seeds as [|c seeds IH]; intros H; [exists []; split; [reflexivity|intros ? ? ? []]|].
  destruct (voxel_exists s c small_dims (H c (or_introl eq_refl))) as (x & y & z & I & E). destruct IH as (l & El & Il); [intros; apply H; right; assumption|].
  exists ((x, y, z) :: l). split; [cbn; rewrite El, <- E; reflexivity|]. intros x' y' z' [E'|H']; [injection E' as <- <- <-; exact I|apply Il; exact H'].
Qed.

Lemma label_exec_image fuel t2 : label_enough im fuel ->
  exists seeds out, label_image fuel t2 cmp se s (pixs im) (LS (map (fun _ => 0) (pixs im)) 0 0) = Some (Some out) /\
    ls_real out = Z.of_nat (length seeds) /\ labelled_by t2 se (cmp_rel cmp) im (Img s (ls_out out)) seeds.
Proof.
  intros Hf. destruct Hw as [Wd Wl]. destruct (label_scan cmp se s (pixs im) Hs Hp HP Wl lstep_sym t2 fuel Hf) as (st & so & E & L & Re & La & Sd & So & Pw & Ev & Co & Fi).
  destruct (unoff so) as (l & El & Il); [intros c Hc; destruct (Sd c Hc); lia|]. exists l, st. split; [exact E|]. rewrite <- El, map_length in Re. split; [exact Re|].
  assert (Pix : forall x y z v, pixel_is im x y z v -> znth 0 (pixs im) (vo x y z) = v) by (intros x y z v [_ P]; apply (znth_rd 0 _ _ _ P)).
  assert (Rd : forall i x y z, rd l i = Some (x, y, z) -> inside s x y z /\ rd so i = Some (vo x y z)).
  { intros i x y z R. split; [apply Il; eapply rd_In; exact R|]. rewrite <- El, rd_map, R. reflexivity. }
  assert (Ins : forall x y z, In (x, y, z) l -> inside s x y z /\ In (vo x y z) so).
  { intros x y z H. split; [apply Il; exact H|]. rewrite <- El. apply in_map_iff. exists (x, y, z). auto. }
  split; [reflexivity|]. split; [split; [exact Wd|exact L]|]. split; [split; [|split; [|split; [|split]]]|].
  - intros x y z H. destruct (Ins x y z H) as (I & H'). destruct (pixel_exists im x y z Hw I) as (v & P). exists v. split; [exact P|]. rewrite <- (Pix _ _ _ _ P). apply Sd. exact H'.
  - rewrite <- El in So. clear - So. induction l as [|a l IH]; [constructor|]. cbn in So. inversion So as [|? ? So' F]; subst. constructor; [apply IH; exact So'|].
    rewrite Forall_forall in *. intros b Hb. apply F. apply in_map. exact Hb.
  - intros i j x y z x' y' z' R R' Lk. apply Rd in R as (_ & R), R' as (_ & R'). eapply Pw; [exact R|exact R'|]. apply linked_conn. exact Lk.
  - intros x y z v P Hv. pose proof (inside_range _ _ _ _ (proj1 P)) as Rg. destruct (Co (vo x y z)) as (c & Hc & C); [lia|rewrite (Pix _ _ _ _ P); exact Hv|].
    rewrite <- El in Hc. apply in_map_iff in Hc as (((x', y'), z') & <- & Hc). exists x', y', z'. split; [exact Hc|]. eapply conn_linked; [apply Il; exact Hc|exact C|apply P|reflexivity].
  - intros x y z x' y' z' v H Lk P Hv. destruct (Ins x y z H) as (I & H'). cbn. apply Fi; [exact H'|apply linked_conn; exact Lk|rewrite (Pix _ _ _ _ P); exact Hv].
  - intros x y z o [I P]. cbn in I, P. destruct (Ev (vo x y z) (inside_range _ _ _ _ I)) as [[E0 H]|(a & c & R & C & E0)]; rewrite (znth_rd 0 _ _ _ P) in E0.
    + left. split; [exact E0|]. intros x' y' z' v P' Hv Lk. pose proof (inside_range _ _ _ _ (proj1 P')) as Rg.
      destruct (Co (vo x' y' z')) as (c & Hc & C); [lia|rewrite (Pix _ _ _ _ P'); exact Hv|]. apply (H c Hc). eapply conn_trans; [exact C|]. apply linked_conn. exact Lk.
    + right. pose proof (rd_In _ _ _ R) as Hc. rewrite <- El in R. rewrite rd_map in R. destruct (rd l a) as [((x', y'), z')|] eqn:Ra; [|discriminate]. injection R as <-.
      exists a, x', y', z'. split; [exact Ra|]. split; [|exact E0]. eapply conn_linked; [apply (Rd a); exact Ra|exact C|exact I|reflexivity].
Qed.
End Image.

(** Labels are read back from the seeds. *)
Section Read.
Context (cmp : Z -> Z -> bool) (Hcmp : forall a b, cmp a b = cmp b a) (se : strelt) (im : img).
Context (Hw : wf_img im) (Hs : int_sized (sz im)) (Hp : int_points se) (HP : planar se (sz im)) (Hy : symmetric_se se).
Context (t2 : ity) (out : img) (seeds : list (Z * Z * Z)) (HL : labelled_by t2 se (cmp_rel cmp) im out seeds).
Notation lk := (linked se (cmp_rel cmp) im).

Lemma cyc_small i : 0 <= i -> i + 1 < tmax t2 -> cyclic_label t2 (i + 1) = i + 1.
Proof. clear. intros H H'. unfold cyclic_label. rewrite Z.mod_small; lia. Qed.

Lemma cyc_pos i : 0 <= i -> 1 <= cyclic_label t2 (i + 1) < tmax t2.
Proof. clear. intros H. apply cyclic_range. lia. Qed.

(** The label of a pixel linked to the seed of rank [i]. *)
Lemma label_of_seed i x' y' z' x y z o : rd seeds i = Some (x', y', z') -> lk x' y' z' x y z -> pixel_is out x y z o -> o = cyclic_label t2 (i + 1).
Proof.
  destruct HL as (Es & Wo & (Nz & So & Pw & Co & Fi) & Ev). intros R Lk P. destruct (Ev x y z o P) as [[_ H]|(j & a & b & c & R' & Lk' & ->)].
  - exfalso. destruct (Nz x' y' z' (rd_In _ _ _ R)) as (v & Pv & Hv). exact (H x' y' z' v Pv Hv Lk).
  - f_equal. f_equal. eapply Pw; [exact R'|exact R|]. eapply linked_trans; [exact Lk'|]. apply linked_sym; assumption.
Qed.

Lemma linked_same_label x y z x' y' z' o o' : lk x y z x' y' z' -> pixel_is out x y z o -> pixel_is out x' y' z' o' -> o = o'.
Proof.
  intros Lk P P'. destruct HL as (Es & Wo & Cs & Ev). destruct (Ev _ _ _ _ P) as [[-> H]|(i & a & b & c & R & Lk' & ->)].
  - destruct (Ev _ _ _ _ P') as [[-> _]|(i & a & b & c & R & Lk' & _)]; [reflexivity|]. exfalso.
    destruct Cs as (Nz & _). destruct (Nz a b c (rd_In _ _ _ R)) as (v & Pv & Hv). apply (H a b c v Pv Hv). eapply linked_trans; [exact Lk'|]. apply linked_sym; assumption.
  - symmetry. eapply label_of_seed; [exact R| |exact P']. eapply linked_trans; eassumption.
Qed.

Lemma same_label_linked x y z x' y' z' o : Z.of_nat (length seeds) < tmax t2 -> pixel_is out x y z o -> pixel_is out x' y' z' o -> o <> 0 -> lk x y z x' y' z'.
Proof.
  intros Hn P P' Ho. destruct HL as (Es & Wo & Cs & Ev).
  destruct (Ev _ _ _ _ P) as [[E _]|(i & a & b & c & R & Lk & E)]; [contradiction|]. destruct (Ev _ _ _ _ P') as [[E' _]|(j & a' & b' & c' & R' & Lk' & E')]; [contradiction|].
  pose proof (rd_Some_range _ _ _ R). pose proof (rd_Some_range _ _ _ R'). rewrite cyc_small in E, E' by lia. assert (i = j) as <- by lia. assert ((a', b', c') = (a, b, c)) as Eq by congruence. injection Eq as -> -> ->.
  eapply linked_trans; [|exact Lk']. apply linked_sym; assumption.
Qed.

Lemma labels_used k : Z.of_nat (length seeds) < tmax t2 -> (1 <= k <= Z.of_nat (length seeds) <-> k <> 0 /\ exists x y z, pixel_is out x y z k).
Proof.
  intros Hn. pose proof HL as (Es & Wo & (Nz & _) & Ev). split.
  - intros Hk. split; [lia|]. destruct (rd seeds (k - 1)) as [((x, y), z)|] eqn:R.
    2:{ exfalso. destruct (rd_in_range seeds (k - 1)) as (v & Hv); [lia|congruence]. }
    destruct (Nz x y z (rd_In _ _ _ R)) as (v & Pv & Hv). assert (I : inside (sz out) x y z) by (rewrite Es; apply Pv).
    destruct (pixel_exists out x y z Wo I) as (o & Po). exists x, y, z. pose proof (label_of_seed _ _ _ _ _ _ _ _ R (linked_self _ _ _ _ _ _ _ Pv) Po) as E.
    rewrite cyc_small in E by lia. replace (k - 1 + 1) with k in E by lia. rewrite <- E. exact Po.
  - intros (Hk & x & y & z & P). destruct (Ev _ _ _ _ P) as [[E _]|(i & a & b & c & R & Lk & E)]; [contradiction|].
    pose proof (rd_Some_range _ _ _ R). rewrite cyc_small in E by lia. lia.
Qed.

Lemma covering_count reps : (forall x y z v, pixel_is im x y z v -> v <> 0 -> exists p, In p reps /\ let '(a, b, c) := p in lk a b c x y z) -> (length seeds <= length reps)%nat.
Proof.
  intros Hr. destruct HL as (Es & Wo & (Nz & So & Pw & Co & Fi) & Ev).
  assert (Q : exists l, incl l reps /\ Forall2 (fun p q => let '(a, b, c) := p in let '(x, y, z) := q in lk a b c x y z) l seeds).
  { clear - Hr Nz. induction seeds as [|((x, y), z) l IH]; [exists []; split; [intros ? []|constructor]|]. destruct IH as (l' & Hi & F); [intros; apply Nz; right; assumption|].
    destruct (Nz x y z (or_introl eq_refl)) as (v & P & Hv). destruct (Hr x y z v P Hv) as (((a, b), c) & Hin & Lk).
    exists ((a, b, c) :: l'). split; [intros p [<-|H]; auto|]. constructor; assumption. }
  destruct Q as (l & Hi & F). assert (Hlen : length l = length seeds) by (clear - F; induction F; cbn; congruence). rewrite <- Hlen. apply NoDup_incl_length; [|exact Hi].
  apply NoDup_nth_error. intros i j Hlt Eij. destruct (nth_error l i) as [p|] eqn:Ei; [|exfalso; apply nth_error_None in Ei; lia].
  assert (G : forall k, nth_error l k = Some p -> exists q, nth_error seeds k = Some q /\ let '(a, b, c) := p in let '(x, y, z) := q in lk a b c x y z).
  { clear - F. induction F as [|a b l l' Hab F IH]; intros [|k] H; cbn in *; try discriminate; [injection H as <-; exists b; auto|apply IH; exact H]. }
  destruct (G i Ei) as (((x, y), z) & Qi & Li). destruct (G j (eq_sym Eij)) as (((x', y'), z') & Qj & Lj). destruct p as ((a, b), c).
  assert (RdN : forall k q, nth_error seeds k = Some q -> rd seeds (Z.of_nat k) = Some q).
  { intros k q H. unfold rd. replace (0 <=? Z.of_nat k) with true by lia. rewrite Nat2Z.id. exact H. }
  assert (Z.of_nat i = Z.of_nat j); [|lia]. eapply Pw; [apply RdN; exact Qi|apply RdN; exact Qj|]. eapply linked_trans; [|exact Lj]. apply linked_sym; assumption.
Qed.

(** The labels follow the raster order of the first pixels. *)
Lemma labels_in_order k k' x y z v : Z.of_nat (length seeds) < tmax t2 -> 1 <= k < k' -> pixel_is out x y z k' -> pixel_is im x y z v -> v <> 0 ->
  exists x' y' z' v', pixel_is out x' y' z' k /\ pixel_is im x' y' z' v' /\ v' <> 0 /\ scan_pos (sz im) (x', y', z') < scan_pos (sz im) (x, y, z).
Proof.
  intros Hn Hk P Pv Hv. pose proof HL as (Es & Wo & (Nz & So & Pw & Co & Fi) & Ev). destruct (Ev _ _ _ _ P) as [[E _]|(i & a & b & c & R & Lk & E)]; [lia|].
  pose proof (rd_Some_range _ _ _ R). rewrite cyc_small in E by lia. destruct (rd seeds (k - 1)) as [((x', y'), z')|] eqn:R'.
  2:{ exfalso. destruct (rd_in_range seeds (k - 1)) as (w & Hw'); [lia|congruence]. }
  destruct (Nz x' y' z' (rd_In _ _ _ R')) as (v' & Pv' & Hv'). assert (I : inside (sz out) x' y' z') by (rewrite Es; apply Pv').
  destruct (pixel_exists out x' y' z' Wo I) as (o & Po). pose proof (label_of_seed _ _ _ _ _ _ _ _ R' (linked_self _ _ _ _ _ _ _ Pv') Po) as E'.
  rewrite cyc_small in E' by lia. replace (k - 1 + 1) with k in E' by lia. subst o. exists x', y', z', v'. split; [exact Po|]. split; [exact Pv'|]. split; [exact Hv'|].
  pose proof (Fi a b c x y z v (rd_In _ _ _ R) Lk Pv Hv) as Le.
  assert (Lt : scan_pos (sz im) (x', y', z') < scan_pos (sz im) (a, b, c)); [|lia].
  assert (Hij : k - 1 < i) by lia. clear - So R R' Hij.
  revert R R' Hij. generalize (k - 1) as j. revert i. induction So as [|p l So IH F]; intros i j R R' Hij; [pose proof (rd_Some_range _ _ _ R) as B; cbn in B; lia|].
  pose proof (rd_Some_range _ _ _ R) as B. pose proof (rd_Some_range _ _ _ R') as B'. cbn [length] in B, B'.
  change (p :: l) with ([p] ++ l) in R, R'. rewrite rd_app in R, R'. cbn [length] in R, R'. destruct (i <? Z.of_nat 1) eqn:E1; [lia|].
  destruct (j <? Z.of_nat 1) eqn:E2.
  - assert (j = 0) as -> by lia. cbn in R'. injection R' as ->. rewrite Forall_forall in F. apply F. eapply rd_In. exact R.
  - eapply IH; [exact R|exact R'|lia].
Qed.
End Read.
