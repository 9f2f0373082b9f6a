(** Proofs about convolutions: images. *)
From Coq Require Import Setoid Lqa.
From Verif Require Export Proofs.ConvolutionProofs.
Local Open Scope Z_scope.

Lemma radius_ok kernel r : averaging kernel r -> kernel_radius kernel = r.
Proof. intros (Hr & Hl & _). unfold kernel_radius. rewrite Hl. replace (2 * r + 1 =? 0) with false by lia. replace (2 * r + 1 - 1) with (r * 2) by lia. apply Z.div_mul. lia. Qed.

Lemma wrap_typed t im k : typed_img t im -> inty t (znth 0 (pixs im) k).
Proof.
  intros H. unfold znth. destruct (rd (pixs im) k) eqn:E; [|apply inty_0]. unfold typed_img in H. rewrite Forall_forall in H. apply H. apply (rd_In _ _ _ E).
Qed.
Lemma value_typed t im x y z : typed_img t im -> inty t (value im x y z).
Proof. apply wrap_typed. Qed.
Lemma value_rd im x y z : wf_img im -> inside (sz im) x y z -> rd (pixs im) (voxel_offset (dw (sz im)) (dh (sz im)) x y z) = Some (value im x y z).
Proof. intros (_ & L) H. apply rd_znth. rewrite L. apply inside_range. exact H. Qed.
Lemma value_is im x y z : wf_img im -> inside (sz im) x y z -> pixel_is im x y z (value im x y z).
Proof. intros W H. split; [exact H|]. apply value_rd; assumption. Qed.

Lemma out_receives junk auto alias im imOut : wf_img im -> (alias = true \/ receives auto im imOut) ->
  let out := if alias then im else if auto then setSize junk imOut (sz im) else imOut in wf_img out /\ sz out = sz im.
Proof.
  intros W H. destruct alias; cbn; [split; [exact W|reflexivity]|]. destruct H as [H|(Wo & H)]; [discriminate|]. destruct auto; [apply setSize_wf; [exact Wo|apply W]|]. destruct H as [H|H]; [discriminate|]. split; assumption.
Qed.

(** ** Horizontal *)
Lemma line_range s l x : wf_dims s -> 0 <= l < lineCount s -> 0 <= x < dw s -> 0 <= l * dw s + x < dw s * dh s * dd s.
Proof. unfold lineCount. intros (A & B & C) Hl Hx. assert (l * dw s <= (dd s * dh s - 1) * dw s) by (apply Z.mul_le_mono_nonneg_r; lia). assert (0 <= l * dw s) by (apply Z.mul_nonneg_nonneg; lia). lia. Qed.
Lemma line_inj s l x l' x' : 0 <= x < dw s -> 0 <= x' < dw s -> l * dw s + x = l' * dw s + x' -> l = l' /\ x = x'.
Proof.
  intros Hx Hx' E. assert (l = l'); [|subst; lia]. transitivity ((l * dw s + x) / dw s); [rewrite Z.div_add_l, Z.div_small; lia|rewrite E, Z.div_add_l, Z.div_small; lia].
Qed.

Section Horizontal.
  Variables (t : ity) (kernel : list Q) (r : Z) (w : list Q) (im : img).
  Hypothesis K : balanced_kernel kernel r.
  Hypothesis Hw : forall i, 0 <= i < r -> exists q, rd w i = Some q /\ (q == qsum (map (kat kernel) (zrange 0 (r + i + 1))))%Q.
  Hypothesis W : wf_img im.
  Hypothesis T : typed_img t im.
  Hypothesis Hn : 2 * r <= dw (sz im).

  Definition line_fun (l x : Z) : Z := znth 0 (pixs im) (l * dw (sz im) + x).
  Definition line_val (l x : Z) : Z := qtrunc (wmean kernel r (dw (sz im)) (line_fun l) x).

  Lemma horiz_line_ok l lIn px : 0 <= l < lineCount (sz im) -> Z.of_nat (length px) = Z.of_nat (length (pixs im)) -> (forall x, 0 <= x < dw (sz im) -> rd lIn x = Some (line_fun l x)) ->
    exists px', horiz_line t kernel r w (dw (sz im)) lIn px (l * dw (sz im)) = Some px' /\ length px' = length px /\
      (forall x, 0 <= x < dw (sz im) -> rd px' (l * dw (sz im) + x) = Some (line_val l x)) /\
      (forall a, (forall x, 0 <= x < dw (sz im) -> l * dw (sz im) + x <> a) -> rd px' a = rd px a).
  Proof.
    intros Hl Lp HI. pose proof K as ((Hr & _) & _). destruct W as (Wd & L).
    destruct (scatter_ok (fun p => option_map (fun v => (l * dw (sz im) + tap_pos p, v)) (tap_value t kernel r w (rd lIn) p)) (fun p => l * dw (sz im) + tap_pos p) (fun p => line_val l (tap_pos p)) (taps (dw (sz im)) r) px) as (px' & E & L' & H1 & H2).
    - intros p Hp. rewrite (tap_ok t kernel r w (dw (sz im)) (line_fun l)); try assumption; [|intros y _; apply wrap_typed; exact T]. split; [reflexivity|]. rewrite Lp, L. apply line_range; [exact Wd|exact Hl|]. apply (taps_pos_range _ r); assumption.
    - intros p q Hp Hq E. apply taps_pos_range in Hp, Hq; try assumption. apply line_inj in E; try assumption. destruct E as (_ & ->). reflexivity.
    - exists px'. split; [|split; [exact L'|split]].
      + rewrite <- E. unfold horiz_line, scatter. apply ImageFacts.fold_opt_ext. intros b p _. destruct (tap_value _ _ _ _ _ _); reflexivity.
      + intros x Hx. destruct (taps_pos_surj (dw (sz im)) r x Hr Hn Hx) as (p & Hp & <-). apply H1. exact Hp.
      + intros a Ha. apply H2. intros p Hp. apply Ha. apply (taps_pos_range _ r); assumption.
  Qed.
End Horizontal.

Theorem horiz_ok t junk sched auto alias im kernel r imOut : (forall l, Permutation (sched l) l) -> balanced_kernel kernel r -> wf_img im -> typed_img t im -> 2 * r <= dw (sz im) ->
  (alias = true \/ receives auto im imOut) -> exists out, horizConvolve t junk sched auto alias im kernel imOut = Some (1, out) /\ mean_x kernel r im out.
Proof.
  intros P K W T Hn HO. pose proof (out_receives junk auto alias im imOut W HO) as (Wo & So). unfold horizConvolve. set (out := if alias then im else _) in *. pose proof K as (Ka & _). rewrite (radius_ok kernel r Ka). pose proof Ka as (Hr & Hlen & _). replace (r <? 0) with false by lia.
  destruct (pkw_ok kernel r Hr ltac:(lia)) as (w & Ew & Hw). rewrite Ew. cbn [option_bind]. pose proof (P (zseq (lineCount (sz im)))) as Pm. set (order := sched _) in *.
  assert (Ho : forall l, In l order <-> 0 <= l < lineCount (sz im)). { intros l. rewrite <- zseq_In. split; apply Permutation_in; [exact Pm|symmetry; exact Pm]. }
  assert (ND : NoDup order) by (apply (Permutation_NoDup (Permutation_sym Pm)), zseq_NoDup). clearbody order. clear Pm.
  assert (Lo : length (pixs out) = length (pixs im)). { destruct Wo as (_ & A), W as (_ & B). rewrite So in A. lia. }
  destruct (fold_opt_inv (fun done px => length px = length (pixs im) /\
      (forall l x, In l done -> 0 <= x < dw (sz im) -> rd px (l * dw (sz im) + x) = Some (line_val kernel r im l x)) /\
      (forall l x, In l order -> ~ In l done -> 0 <= x < dw (sz im) -> rd px (l * dw (sz im) + x) = rd (pixs out) (l * dw (sz im) + x)))
    (fun px y =>
      option_bind (rd (restruct_lines (sz im)) y) (fun a =>
      option_bind (copy_line (if alias then px else pixs im) a (dw (sz im))) (fun lIn =>
      option_bind (rd (restruct_lines (sz out)) y) (fun b =>
      horiz_line t kernel r w (dw (sz im)) lIn px b)))) order (pixs out)) as (px & E & Lp & H1 & _).
  - split; [exact Lo|]. split; [intros l x []|]. intros; reflexivity.
  - intros done l todo px El (Lp & H1 & H2). assert (Hl : In l order) by (rewrite El; apply in_elt). assert (NI : ~ In l done). { rewrite El in ND. apply NoDup_remove_2 in ND. intros C. apply ND, in_or_app. left. exact C. }
    pose proof (proj1 (Ho l) Hl) as Rl. destruct W as ((Wa & Wb & Wc) & L). rewrite So, !rd_restruct_lines by assumption. cbn [option_bind].
    assert (HC : copy_line (if alias then px else pixs im) (l * dw (sz im)) (dw (sz im)) = Some (map (znth 0 (pixs im)) (zrange (l * dw (sz im)) (dw (sz im))))).
    { apply all_some_map. intros a Ha. apply zrange_In in Ha. replace a with (l * dw (sz im) + (a - l * dw (sz im))) by lia. assert (Hx : 0 <= a - l * dw (sz im) < dw (sz im)) by lia. set (x := a - l * dw (sz im)) in *. clearbody x. rewrite <- rd_znth by (rewrite L; apply line_range; [repeat split; assumption|exact Rl|exact Hx]). destruct alias; [|reflexivity]. rewrite H2 by assumption. reflexivity. }
    rewrite HC. cbn [option_bind]. destruct (horiz_line_ok t kernel r w im K Hw) with (l := l) (lIn := map (znth 0 (pixs im)) (zrange (l * dw (sz im)) (dw (sz im)))) (px := px) as (px' & E & L' & A & B); try assumption; [split; [repeat split|]; assumption|lia| |].
    { intros x Hx. rewrite rd_map. unfold zrange. rewrite rd_map, rd_zseq by exact Hx. reflexivity. }
    exists px'. split; [exact E|]. split; [lia|]. split.
    + intros l' x Hi Hx. apply in_app_iff in Hi. destruct (Z.eq_dec l' l) as [->|N]; [apply A; exact Hx|]. destruct Hi as [Hi|[<-|[]]]; [|contradiction]. rewrite B; [apply H1; assumption|]. intros x' Hx' C. apply line_inj in C; try assumption. destruct C; congruence.
    + intros l' x Hi Hd Hx. rewrite in_app_iff in Hd. cbn [In] in Hd. rewrite B; [apply H2; tauto|]. intros x' Hx' C. apply line_inj in C; try assumption. destruct C; subst. tauto.
  - rewrite E. cbn [option_bind]. eexists. split; [reflexivity|]. assert (Wf : wf_img (Img (sz out) px)). { split; cbn [sz pixs]; [apply Wo|]. rewrite Lp, <- Lo. apply Wo. } split; [exact Wf|]. split; [exact So|].
    intros x y z v (I & Hv). cbn [sz pixs] in I, Hv. rewrite So in I, Hv. unfold inside in I. unfold voxel_offset in Hv. replace (x + dw (sz im) * (y + dh (sz im) * z)) with ((y + dh (sz im) * z) * dw (sz im) + x) in Hv by ring.
    rewrite H1 in Hv; [|apply Ho; unfold lineCount; nia|lia]. injection Hv as <-. eapply part_comp; [|apply qtrunc_part]. apply wmean_ext. intros i _. unfold line_fun, value, voxel_offset. f_equal. ring.
Qed.

(** ** Vertical *)
Theorem vert_ok t junk sched auto im kernel r imOut : legal_sched sched -> balanced_kernel kernel r -> wf_img im -> typed_img t im -> 2 * r <= dh (sz im) ->
  receives auto im imOut -> exists out, vertConvolve t junk sched auto false im kernel imOut = Some (1, out) /\ mean_y kernel r im out.
Proof.
  intros P K W T Hn HO. pose proof (out_receives junk auto false im imOut W (or_intror HO)) as (Wo & So). unfold vertConvolve. set (out := if auto then _ else _) in *. pose proof K as (Ka & _). rewrite (radius_ok kernel r Ka). pose proof Ka as (Hr & Hlen & _). replace (r <? 0) with false by lia.
  destruct (pkw_ok kernel r Hr ltac:(lia)) as (w & Ew & Hw). rewrite Ew. cbn [option_bind]. set (order := flat_map _ _).
  assert (Ho : forall x p z, In (x, p, z) order <-> 0 <= x < dw (sz im) /\ In p (taps (dh (sz im)) r) /\ 0 <= z < dd (sz im)).
  { intros x p z. unfold order. rewrite in_flat_map. split.
    - intros (z' & Hz & H). apply in_flat_map in H as (x' & Hx & H). apply in_map_iff in H as (p' & E & Hp). injection E as -> -> ->. apply (P (zseq _)) in Hx. apply zseq_In in Hx. apply zseq_In in Hz. tauto.
    - intros (Hx & Hp & Hz). exists z. split; [apply zseq_In; exact Hz|]. apply in_flat_map. exists x. split; [apply (P (zseq _)), zseq_In; exact Hx|]. apply in_map_iff. exists p. split; [reflexivity|exact Hp]. }
  clearbody order.
  set (val := fun c : Z * tap * Z => let '(x, p, z) := c in qtrunc (wmean kernel r (dh (sz im)) (fun y => value im x y z) (tap_pos p))).
  set (addr := fun c : Z * tap * Z => let '(x, p, z) := c in voxel_offset (dw (sz im)) (dh (sz im)) x (tap_pos p) z).
  assert (IN : forall x p z, In (x, p, z) order -> inside (sz im) x (tap_pos p) z). { intros x p z H. apply Ho in H as (Hx & Hp & Hz). apply taps_pos_range in Hp; try assumption. unfold inside. lia. }
  destruct (scatter_ok (fun c : Z * tap * Z => let '(x, p, z) := c in
      option_bind (tap_value t kernel r w (fun y => option_bind (slice_access (sz im) x y z) (rd (pixs im))) p) (fun v =>
      option_map (fun a => (a, v)) (slice_access (sz out) x (tap_pos p) z))) addr val order (pixs out)) as (px & E & Lp & H1 & _).
  - intros ((x & p) & z) H. pose proof (IN x p z H) as I. apply Ho in H as (Hx & Hp & Hz). cbn [addr val].
    rewrite (tap_ok t kernel r w (dh (sz im)) (fun y => value im x y z)); try assumption.
    + cbn [option_bind]. rewrite So. rewrite slice_access_wf; [|apply W|exact I]. split; [reflexivity|]. destruct Wo as (_ & Lo). rewrite Lo, So. apply inside_range. exact I.
    + intros y Hy. assert (I' : inside (sz im) x y z) by (unfold inside; lia). rewrite slice_access_wf; [|apply W|exact I']. cbn [option_bind]. apply value_rd; assumption.
    + intros y _. apply value_typed. exact T.
  - intros ((x & p) & z) ((x' & p') & z') H H' E. apply IN in H, H'. cbn [addr val] in *. apply (voxel_inj (sz im)) in E; try assumption. destruct E as (-> & -> & ->). reflexivity.
  - match goal with |- exists o, option_bind ?F _ = _ /\ _ => assert (F = Some px) as -> end.
    { rewrite <- E. unfold scatter. apply ImageFacts.fold_opt_ext. intros b ((x & p) & z) _. destruct (tap_value _ _ _ _ _ _); [|reflexivity]. cbn [option_bind]. destruct (slice_access _ _ _ _); reflexivity. }
    cbn [option_bind]. eexists. split; [reflexivity|]. split; [split; cbn [sz pixs]; [apply Wo|rewrite Lp; apply Wo]|]. split; [exact So|].
    intros x y z v (I & Hv). cbn [sz pixs] in I, Hv. rewrite So in I, Hv. unfold inside in I. destruct (taps_pos_surj (dh (sz im)) r y Hr Hn ltac:(lia)) as (p & Hp & Ep). specialize (H1 (x, p, z)). cbn [addr val] in H1. rewrite Ep in H1. rewrite H1 in Hv by (apply Ho; repeat split; try assumption; lia). injection Hv as <-. apply qtrunc_part.
Qed.

(** ** What a mean along an axis preserves *)
Lemma typed_by t im : wf_img im -> (forall x y z v, pixel_is im x y z v -> inty t v) -> typed_img t im.
Proof.
  intros (Wd & L) H. apply Forall_forall. intros v Hv. apply In_rd in Hv as (k & R & Hk). rewrite L in R. destruct (voxel_surj (sz im) k Wd R) as (x & y & z & I & ->). apply (H x y z). split; assumption.
Qed.
Lemma mean_x_bounds kernel r im out x y z v a b : averaging kernel r -> wf_img im -> mean_x kernel r im out -> pixel_is out x y z v ->
  (forall x' u, Z.abs (x' - x) <= r -> pixel_is im x' y z u -> a <= u <= b) -> a <= v <= b.
Proof.
  intros K W (_ & So & H) Hv B. pose proof (proj1 Hv) as I. rewrite So in I. unfold inside in I. destruct (wmean_bounds kernel r (dw (sz im)) (fun x => value im x y z) x a b K ltac:(lia)) as (A1 & A2).
  - intros i Hi. apply window_In in Hi. apply (B (x + i)); [lia|]. apply value_is; [exact W|]. unfold inside. lia.
  - apply (part_bounds _ _ _ _ (H x y z v Hv) A1 A2).
Qed.
Lemma mean_y_bounds kernel r im out x y z v a b : averaging kernel r -> wf_img im -> mean_y kernel r im out -> pixel_is out x y z v ->
  (forall y' u, Z.abs (y' - y) <= r -> pixel_is im x y' z u -> a <= u <= b) -> a <= v <= b.
Proof.
  intros K W (_ & So & H) Hv B. pose proof (proj1 Hv) as I. rewrite So in I. unfold inside in I. destruct (wmean_bounds kernel r (dh (sz im)) (fun y => value im x y z) y a b K ltac:(lia)) as (A1 & A2).
  - intros i Hi. apply window_In in Hi. apply (B (y + i)); [lia|]. apply value_is; [exact W|]. unfold inside. lia.
  - apply (part_bounds _ _ _ _ (H x y z v Hv) A1 A2).
Qed.
Lemma mean_z_bounds kernel r im out x y z v a b : averaging kernel r -> wf_img im -> mean_z kernel r im out -> pixel_is out x y z v ->
  (forall z' u, Z.abs (z' - z) <= r -> pixel_is im x y z' u -> a <= u <= b) -> a <= v <= b.
Proof.
  intros K W (_ & So & H) Hv B. pose proof (proj1 Hv) as I. rewrite So in I. unfold inside in I. destruct (wmean_bounds kernel r (dd (sz im)) (fun z => value im x y z) z a b K ltac:(lia)) as (A1 & A2).
  - intros i Hi. apply window_In in Hi. apply (B (z + i)); [lia|]. apply value_is; [exact W|]. unfold inside. lia.
  - apply (part_bounds _ _ _ _ (H x y z v Hv) A1 A2).
Qed.
Lemma mean_y_typed t kernel r im out : averaging kernel r -> wf_img im -> typed_img t im -> mean_y kernel r im out -> typed_img t out.
Proof.
  intros K W T M. apply typed_by; [apply M|]. intros x y z v Hv. apply (mean_y_bounds kernel r im out x y z v (tmin t) (tmax t) K W M Hv). intros y' u _ Hu. rewrite <- (value_pixel_is _ _ _ _ _ Hu). apply (value_typed t im x y' z T).
Qed.
Lemma mean_x_typed t kernel r im out : averaging kernel r -> wf_img im -> typed_img t im -> mean_x kernel r im out -> typed_img t out.
Proof.
  intros K W T M. apply typed_by; [apply M|]. intros x y z v Hv. apply (mean_x_bounds kernel r im out x y z v (tmin t) (tmax t) K W M Hv). intros x' u _ Hu. rewrite <- (value_pixel_is _ _ _ _ _ Hu). apply (value_typed t im x' y z T).
Qed.
Lemma mean_x_mono kernel r im im' out out' x y z v v' : averaging kernel r -> wf_img im -> wf_img im' -> sz im = sz im' -> mean_x kernel r im out -> mean_x kernel r im' out' ->
  (forall x y z u u', pixel_is im x y z u -> pixel_is im' x y z u' -> u <= u') -> pixel_is out x y z v -> pixel_is out' x y z v' -> v <= v'.
Proof.
  intros K W W' S (_ & So & H) (_ & So' & H') L Hv Hv'. pose proof (proj1 Hv) as I. rewrite So in I. unfold inside in I. eapply part_mono; [|apply (H x y z v Hv)|apply (H' x y z v' Hv')]. rewrite <- S. apply wmean_le; [exact K|lia|]. intros i Hi. apply window_In in Hi. assert (inside (sz im) (x + i) y z) by (unfold inside; lia). apply (L (x + i) y z); apply value_is; try assumption. rewrite <- S. assumption.
Qed.
Lemma mean_y_mono kernel r im im' out out' x y z v v' : averaging kernel r -> wf_img im -> wf_img im' -> sz im = sz im' -> mean_y kernel r im out -> mean_y kernel r im' out' ->
  (forall x y z u u', pixel_is im x y z u -> pixel_is im' x y z u' -> u <= u') -> pixel_is out x y z v -> pixel_is out' x y z v' -> v <= v'.
Proof.
  intros K W W' S (_ & So & H) (_ & So' & H') L Hv Hv'. pose proof (proj1 Hv) as I. rewrite So in I. unfold inside in I. eapply part_mono; [|apply (H x y z v Hv)|apply (H' x y z v' Hv')]. rewrite <- S. apply wmean_le; [exact K|lia|]. intros i Hi. apply window_In in Hi. assert (inside (sz im) x (y + i) z) by (unfold inside; lia). apply (L x (y + i) z); apply value_is; try assumption. rewrite <- S. assumption.
Qed.
Lemma mean_z_mono kernel r im im' out out' x y z v v' : averaging kernel r -> wf_img im -> wf_img im' -> sz im = sz im' -> mean_z kernel r im out -> mean_z kernel r im' out' ->
  (forall x y z u u', pixel_is im x y z u -> pixel_is im' x y z u' -> u <= u') -> pixel_is out x y z v -> pixel_is out' x y z v' -> v <= v'.
Proof.
  intros K W W' S (_ & So & H) (_ & So' & H') L Hv Hv'. pose proof (proj1 Hv) as I. rewrite So in I. unfold inside in I. eapply part_mono; [|apply (H x y z v Hv)|apply (H' x y z v' Hv')]. rewrite <- S. apply wmean_le; [exact K|lia|]. intros i Hi. apply window_In in Hi. assert (inside (sz im) x y (z + i)) by (unfold inside; lia). apply (L x y (z + i)); apply value_is; try assumption. rewrite <- S. assumption.
Qed.

(** ** Both *)
Theorem convolve_ok t junk sV sH auto im kernel r imOut : legal_sched sV -> (forall l, Permutation (sH l) l) -> balanced_kernel kernel r -> wf_img im -> typed_img t im -> 2 * r <= dw (sz im) -> 2 * r <= dh (sz im) ->
  receives auto im imOut -> exists mid out, convolve t junk sV sH auto im kernel imOut = Some (1, out) /\ mean_y kernel r im mid /\ mean_x kernel r mid out.
Proof.
  intros LV LH K W T H1 H2 R. unfold convolve. destruct (vert_ok t junk sV auto im kernel r imOut) as (mid & E & M); try assumption. rewrite E. cbn [option_bind snd]. pose proof M as (Wm & Sm & _). destruct (horiz_ok t junk sH auto true mid kernel r mid) as (out & E' & M'); try assumption; [apply (mean_y_typed t kernel r im); try assumption; apply K|rewrite Sm; exact H1|left; reflexivity|]. rewrite E'. cbn [option_bind snd]. exists mid, out. split; [reflexivity|]. split; assumption.
Qed.

(** ** The Gaussian filter *)
Lemma gauss_dir_ok t sched kernel r im stride pos n dst (f : Z * Z * Z -> Z -> Z) : legal_sched sched -> averaging kernel r -> wf_img im -> typed_img t im -> length dst = length (pixs im) ->
  (forall x y z, inside (sz im) x y z -> 0 <= pos (x, y, z) < n /\ (forall i, 0 <= pos (x, y, z) + i < n -> rd (pixs im) ((z * dh (sz im) + y) * dw (sz im) + x + i * stride) = Some (f (x, y, z) (pos (x, y, z) + i))) /\ forall c, inty t (f (x, y, z) c)) ->
  exists px, gauss_dir t sched kernel r (sz im) stride pos n (pixs im) dst = Some px /\ wf_img (Img (sz im) px) /\
    forall x y z v, pixel_is (Img (sz im) px) x y z v -> integer_part (wmean kernel r n (f (x, y, z)) (pos (x, y, z))) v.
Proof.
  intros P K W T Ld H. unfold gauss_dir. assert (Wd : wf_img (Img (sz im) dst)) by (split; cbn; [apply W|rewrite Ld; apply W]).
  assert (G : forall x y z, In (x, y, z) (sched (Loops.grid (dw (sz im)) (dh (sz im)) (dd (sz im)))) <-> inside (sz im) x y z). { intros x y z. rewrite (P _ (x, y, z)), LoopFacts.grid_In. unfold inside. tauto. }
  destruct (scatter_voxels (fun '(x, y, z) => let i0 := (z * dh (sz im) + y) * dw (sz im) + x in option_map (fun v => (i0, v)) (gauss_px t kernel r (fun i => rd (pixs im) (i0 + i * stride)) (pos (x, y, z)) n)) (fun c => c) (fun c => qtrunc (wmean kernel r n (f c) (pos c))) (sched (Loops.grid (dw (sz im)) (dh (sz im)) (dd (sz im)))) (sz im) dst Wd) as (px & E & Wp & Hp & _).
  - intros ((x & y) & z) Hc. apply G in Hc. split; [exact Hc|]. destruct (H x y z Hc) as (A & B & C). cbn zeta. rewrite (gauss_px_ok t kernel r _ (f (x, y, z)) (pos (x, y, z)) n K A B) by (intros; apply C). cbn [option_map]. do 2 f_equal. unfold voxel_offset. ring.
  - intros c c' _ _ ->. reflexivity.
  - exists px. split; [exact E|]. split; [exact Wp|]. intros x y z v Hv. pose proof (Hp (x, y, z) (proj2 (G x y z) (proj1 Hv))) as Hv'. cbn in Hv'. rewrite (pixel_is_fun _ _ _ _ _ _ Hv Hv'). apply qtrunc_part.
Qed.

Theorem gauss_ok t s1 s2 s3 im kernel r imOut : legal_sched s1 -> legal_sched s2 -> legal_sched s3 -> averaging kernel r -> wf_img im -> typed_img t im -> wf_img imOut -> sz imOut = sz im ->
  exists a b out, gaussianFilter t s1 s2 s3 im kernel r imOut = Some (1, out) /\ mean_x kernel r im a /\ mean_y kernel r a b /\ mean_z kernel r b out.
Proof.
  intros L1 L2 L3 K W T Wo So. unfold gaussianFilter. set (s := sz im).
  assert (Lz : length (repeat 0 (length (pixs im))) = length (pixs im)) by apply repeat_length.
  destruct (gauss_dir_ok t s1 kernel r im 1 (fun '(x, _, _) => x) (dw s) (repeat 0 (length (pixs im))) (fun '(x, y, z) x' => value im x' y z) L1 K W T Lz) as (pa & Ea & Wa & Ha).
  { intros x y z I. pose proof I as (Hx & Hy & Hz). split; [exact Hx|]. split; [|intros c; apply value_typed; exact T]. intros i Hi. rewrite <- value_rd; [f_equal; unfold voxel_offset; ring|exact W|]. unfold inside. fold s. split; [exact Hi|]. split; assumption. }
  fold s in Ea, Wa, Ha. rewrite Ea. cbn [option_bind]. assert (Ma : mean_x kernel r im (Img s pa)) by (split; [exact Wa|split; [reflexivity|exact Ha]]). pose proof (mean_x_typed t kernel r im _ K W T Ma) as Ta.
  assert (La : length pa = length (pixs im)). { destruct W as (_ & A), Wa as (_ & B). cbn in B. fold s in A. lia. }
  destruct (gauss_dir_ok t s2 kernel r (Img s pa) (dw s) (fun '(_, y, _) => y) (dh s) (repeat 0 (length (pixs im))) (fun '(x, y, z) y' => value (Img s pa) x y' z) L2 K Wa Ta) as (pb & Eb & Wb & Hb).
  { cbn [pixs]. lia. }
  { intros x y z I. pose proof I as (Hx & Hy & Hz). cbn [sz] in *. split; [exact Hy|]. split; [|intros c; apply value_typed; exact Ta]. intros i Hi. rewrite <- (value_rd (Img s pa)); [cbn [sz pixs]; f_equal; unfold voxel_offset; ring|exact Wa|]. unfold inside. cbn [sz]. split; [exact Hx|]. split; assumption. }
  cbn [sz pixs] in Eb, Wb, Hb. rewrite Eb. cbn [option_bind]. assert (Mb : mean_y kernel r (Img s pa) (Img s pb)) by (split; [exact Wb|split; [reflexivity|exact Hb]]). pose proof (mean_y_typed t kernel r _ _ K Wa Ta Mb) as Tb.
  destruct (gauss_dir_ok t s3 kernel r (Img s pb) (dw s * dh s) (fun '(_, _, z) => z) (dd s) (pixs imOut) (fun '(x, y, z) z' => value (Img s pb) x y z') L3 K Wb Tb) as (pc & Ec & Wc & Hc).
  { destruct Wo as (_ & A), Wb as (_ & B). cbn in *. rewrite So in A. fold s in A. lia. }
  { intros x y z I. pose proof I as (Hx & Hy & Hz). cbn [sz] in *. split; [exact Hz|]. split; [|intros c; apply value_typed; exact Tb]. intros i Hi. rewrite <- (value_rd (Img s pb)); [cbn [sz pixs]; f_equal; unfold voxel_offset; ring|exact Wb|]. unfold inside. cbn [sz]. split; [exact Hx|]. split; assumption. }
  cbn [sz pixs] in Ec, Wc, Hc. rewrite Ec. cbn [option_bind]. exists (Img s pa), (Img s pb), (Img s pc). split; [reflexivity|]. split; [exact Ma|]. split; [exact Mb|]. split; [exact Wc|split; [reflexivity|exact Hc]].
Qed.
