(** Proofs about resizing. *)
From Coq Require Import String.
From Verif Require Export Proofs.ConvolutionProofs2 Spec.ResizeSpec.
Local Open Scope Z_scope.

(** ** Axes *)
Lemma pos_range w s i : 1 <= w -> 0 <= i < s -> 0 <= i * (w - 1) <= (s - 1) * (w - 1).
Proof. intros. nia. Qed.
Lemma nearest_ok w s i : 1 <= w -> 2 <= s -> 0 <= i < s -> exists x, nearest_axis w s i = Some x /\ nearest_to w s i x.
Proof.
  intros Hw Hs Hi. unfold nearest_axis. replace (s =? 1) with false by lia. eexists. split; [reflexivity|]. unfold nearest_to.
  pose proof (pos_range w s i Hw Hi) as R. set (p := i * (w - 1)) in *. set (d := s - 1) in *. assert (D : 1 <= d) by lia.
  pose proof (Z.div_mod (2 * p + d) (2 * d) ltac:(lia)) as E. pose proof (Z.mod_pos_bound (2 * p + d) (2 * d) ltac:(lia)) as B. set (q := (2 * p + d) / (2 * d)) in *.
  assert (Q : q <= w - 1) by nia. rewrite Z.min_l by exact Q. assert (0 <= q) by (apply Z.div_pos; lia). split; [lia|]. nia.
Qed.
Lemma linear_ok w s i : 1 <= w -> 2 <= s -> 0 <= i < s -> exists l h c, linear_axis w s i = Some (l, h, c) /\ 0 <= l < w /\ 0 <= h < w /\
  forall f, (s - 1 - c) * f l + c * f h = lin (s - 1) (i * (w - 1)) f.
Proof.
  intros Hw Hs Hi. unfold linear_axis. replace (s =? 1) with false by lia.
  pose proof (pos_range w s i Hw Hi) as R. set (p := i * (w - 1)) in *. set (d := s - 1) in *. assert (D : 1 <= d) by lia.
  pose proof (Z.div_mod p d ltac:(lia)) as E. pose proof (Z.mod_pos_bound p d ltac:(lia)) as B. unfold lin. set (l := p / d) in *. set (m := p mod d) in *.
  assert (L0 : 0 <= l) by (apply Z.div_pos; lia). assert (L1 : l <= w - 1) by nia. cbv zeta.
  destruct (Z.ltb_spec (l + 1) w).
  - exists l, (l + 1), m. split; [|split; [lia|split; [lia|reflexivity]]]. replace (l + 1 >? l) with true by lia. replace (p - l * d) with m by lia. reflexivity.
  - exists l, l, d. split; [|split; [lia|split; [lia|]]]. { replace (l >? l) with false by lia. reflexivity. }
    assert (l = w - 1) by lia. assert (m = 0) by nia. intros f. rewrite H1. lia.
Qed.
Lemma lin_mono w d p f g : 1 <= d -> 0 <= p <= d * (w - 1) -> (forall x, 0 <= x < w -> Z.abs (x * d - p) < d -> f x <= g x) -> lin d p f <= lin d p g.
Proof.
  intros D R H. unfold lin. pose proof (Z.div_mod p d ltac:(lia)) as E. pose proof (Z.mod_pos_bound p d ltac:(lia)) as B. set (l := p / d) in *. set (m := p mod d) in *.
  assert (L0 : 0 <= l) by (apply Z.div_pos; lia). assert (L1 : l <= w - 1) by nia.
  assert (A : f l <= g l) by (apply H; [lia|]; nia).
  destruct (Z.eq_dec m 0) as [M|M].
  - rewrite M. nia.
  - assert (C : f (l + 1) <= g (l + 1)) by (apply H; [nia|]; nia). nia.
Qed.
Lemma lin_const d p A : lin d p (fun _ => A) = d * A.
Proof. unfold lin. ring. Qed.
Lemma lin_scale d p k f : lin d p (fun x => k * f x) = k * lin d p f.
Proof. unfold lin. ring. Qed.
Lemma lin_exact d i f : 1 <= d -> lin d (i * d) f = d * f i.
Proof. intros D. unfold lin. rewrite Z.mod_mul, Z.div_mul by lia. ring. Qed.
Lemma lin_ext d p f g : (forall x, f x = g x) -> lin d p f = lin d p g.
Proof. intros H. unfold lin. rewrite !H. reflexivity. Qed.

Lemma next_abs w s i x : 0 <= x < w -> Z.abs (x * (s - 1) - i * (w - 1)) < s - 1 -> next_to w s i x.
Proof. intros. split; assumption. Qed.
Lemma lin2_mono s sx sy i j f g : 1 <= dw s -> 1 <= dh s -> 2 <= sx -> 2 <= sy -> 0 <= i < sx -> 0 <= j < sy ->
  (forall x y, next_to (dw s) sx i x -> next_to (dh s) sy j y -> f x y <= g x y) -> lin2 s sx sy i j f <= lin2 s sx sy i j g.
Proof.
  intros W H Sx Sy Hi Hj L. unfold lin2. apply (lin_mono (dw s)); [lia|apply pos_range; lia|]. intros x X1 X2.
  apply (lin_mono (dh s)); [lia|apply pos_range; lia|]. intros y Y1 Y2. apply L; split; assumption.
Qed.
Lemma lin3_mono s sx sy sz' i j k f g : 1 <= dw s -> 1 <= dh s -> 1 <= dd s -> 2 <= sx -> 2 <= sy -> 2 <= sz' -> 0 <= i < sx -> 0 <= j < sy -> 0 <= k < sz' ->
  (forall x y z, next_to (dw s) sx i x -> next_to (dh s) sy j y -> next_to (dd s) sz' k z -> f x y z <= g x y z) -> lin3 s sx sy sz' i j k f <= lin3 s sx sy sz' i j k g.
Proof.
  intros W H D Sx Sy Sz Hi Hj Hk L. unfold lin3. apply (lin_mono (dw s)); [lia|apply pos_range; lia|]. intros x X1 X2.
  apply (lin_mono (dh s)); [lia|apply pos_range; lia|]. intros y Y1 Y2. apply (lin_mono (dd s)); [lia|apply pos_range; lia|]. intros z Z1 Z2. apply L; split; assumption.
Qed.
Lemma lin2_const s sx sy i j A : lin2 s sx sy i j (fun _ _ => A) = A * ((sx - 1) * (sy - 1)).
Proof. unfold lin2. rewrite (lin_ext _ _ _ (fun _ => (sy - 1) * A)) by (intros; apply lin_const). rewrite lin_const. ring. Qed.
Lemma lin3_const s sx sy sz' i j k A : lin3 s sx sy sz' i j k (fun _ _ _ => A) = A * ((sx - 1) * (sy - 1) * (sz' - 1)).
Proof.
  unfold lin3. rewrite (lin_ext _ _ _ (fun _ => (sy - 1) * ((sz' - 1) * A))).
  - rewrite lin_const. ring.
  - intros x. rewrite (lin_ext _ _ _ (fun _ => (sz' - 1) * A)) by (intros; apply lin_const). apply lin_const.
Qed.
Lemma quot_between a b n d : 0 < d -> a * d <= n <= b * d -> a <= Z.quot n d <= b.
Proof.
  intros D (A & B). split.
  - rewrite <- (Z.quot_mul a d) by lia. apply Z.quot_le_mono; lia.
  - rewrite <- (Z.quot_mul b d) by lia. apply Z.quot_le_mono; lia.
Qed.

(** ** Reading *)
Lemma value_at im x y z : wf_img im -> inside (sz im) x y z -> rd (pixs im) (z * (width im * height im) + y * width im + x) = Some (value im x y z).
Proof.
  intros W H. rewrite <- (value_rd im x y z W H). f_equal. unfold voxel_offset, width, height. ring.
Qed.
Lemma typed_value t im x y z : typed_img t im -> inty t (value im x y z).
Proof. apply value_typed. Qed.

(** ** Loops *)
Lemma closest_loop_ok junk sched im sx sy imOut : legal_sched sched -> wf_img im -> solid_dims (sz im) -> dd (sz im) = 1 -> wf_img imOut -> 2 <= sx -> 2 <= sy ->
  exists out, closest_loop junk sched im sx sy imOut = Some (1, out) /\ wf_img out /\ sz out = Dims sx sy 1 /\
    forall i j v, pixel_is out i j 0 v -> exists x y, nearest_to (dw (sz im)) sx i x /\ nearest_to (dh (sz im)) sy j y /\ pixel_is im x y 0 v /\
      nearest_axis (dw (sz im)) sx i = Some x /\ nearest_axis (dh (sz im)) sy j = Some y.
Proof.
  intros Hs W (S1 & S2 & S3) D1 Wo Hx Hy. unfold closest_loop.
  destruct (LoopFacts.setSize_wf junk imOut (Dims sx sy 1) Wo) as (Ws & Es); [repeat split; cbn; lia|]. set (out := setSize junk imOut _) in *.
  set (src := fun i j => match nearest_axis (dw (sz im)) sx i, nearest_axis (dh (sz im)) sy j with Some x, Some y => value im x y 0 | _, _ => 0 end).
  destruct (scatter_voxels (fun '(i, j, _) => option_bind (nearest_axis (width im) sx i) (fun xo => option_bind (nearest_axis (height im) sy j) (fun yo =>
      option_map (fun v => (j * sx + i, v)) (rd (pixs im) (yo * width im + xo))))) (fun c => c) (fun '(i, j, _) => src i j) (sched (Loops.grid sx sy 1)) (sz out) (pixs out)) as (px & E & Wp & V & _).
  - destruct out; exact Ws.
  - intros [[i j] k] Hc. apply (proj1 (Hs _ _)) in Hc. apply grid_In in Hc as (Hi & Hj & Hk). rewrite Es. cbn [dw dh]. split; [unfold inside; cbn; lia|].
    unfold src, width, height. destruct (nearest_ok (dw (sz im)) sx i S1 Hx Hi) as (x & -> & (Rx & _)). destruct (nearest_ok (dh (sz im)) sy j S2 Hy Hj) as (y & -> & (Ry & _)). cbn [option_bind].
    pose proof (value_at im x y 0 W ltac:(unfold inside; lia)) as R. unfold width, height in R. replace (0 * (dw (sz im) * dh (sz im)) + y * dw (sz im) + x) with (y * dw (sz im) + x) in R by ring. rewrite R. cbn [option_map]. do 2 f_equal. unfold voxel_offset. replace k with 0 by lia. ring.
  - intros [[i j] k] [[i' j'] k'] _ _ [= -> -> ->]. reflexivity.
  - rewrite E. cbn [option_bind]. eexists. split; [reflexivity|]. split; [exact Wp|]. split; [exact Es|].
    intros i j v Hv. pose proof (proj1 Hv) as Hin. cbn [sz] in Hin. rewrite Es in Hin. destruct Hin as (Hi & Hj & _). cbn in Hi, Hj.
    specialize (V (i, j, 0) ltac:(apply (proj2 (Hs _ _)); apply grid_In; lia)). cbn in V. pose proof (pixel_is_fun _ _ _ _ _ _ Hv V) as ->. unfold src.
    destruct (nearest_ok (dw (sz im)) sx i S1 Hx Hi) as (x & Ex & Nx). destruct (nearest_ok (dh (sz im)) sy j S2 Hy Hj) as (y & Ey & Ny). rewrite Ex, Ey.
    exists x, y. split; [exact Nx|]. split; [exact Ny|]. split; [|auto]. apply value_is; [exact W|]. destruct Nx, Ny. unfold inside. lia.
Qed.
Lemma closest_forever fuel : forall flat junk sched im sx sy imOut, 1 < depth im -> closest_call fuel flat junk sched im sx sy imOut = None.
Proof. induction fuel as [|fuel IH]; intros; cbn; [reflexivity|]. replace (depth im >? 1) with true by lia. apply IH. assumption. Qed.

Lemma interp2_typed t im sx sy i j : wf_img im -> typed_img t im -> solid_dims (sz im) -> 2 <= sx -> 2 <= sy -> 0 <= i < sx -> 0 <= j < sy ->
  inty t (Z.quot (lin2 (sz im) sx sy i j (fun x y => value im x y 0)) ((sx - 1) * (sy - 1))).
Proof.
  intros W T (S1 & S2 & S3) Hx Hy Hi Hj. apply quot_between; [nia|]. rewrite <- !lin2_const with (s := sz im) (i := i) (j := j).
  split; apply lin2_mono; try assumption; intros x y _ _; apply (value_typed t im x y 0 T).
Qed.
Lemma bilinear_ok t junk sched im sx sy imOut : legal_sched sched -> wf_img im -> typed_img t im -> solid_dims (sz im) -> dd (sz im) = 1 -> wf_img imOut -> 2 <= sx -> 2 <= sy ->
  exists out, bilinear t junk sched im sx sy imOut = Some (1, out) /\ wf_img out /\ sz out = Dims sx sy 1 /\
    forall i j v, pixel_is out i j 0 v -> v = Z.quot (lin2 (sz im) sx sy i j (fun x y => value im x y 0)) ((sx - 1) * (sy - 1)).
Proof.
  intros Hs W T S D1 Wo Hx Hy. pose proof S as (S1 & S2 & S3). unfold bilinear. cbv zeta.
  destruct (LoopFacts.setSize_wf junk imOut (Dims sx sy 1) Wo) as (Ws & Es); [repeat split; cbn; lia|]. set (out := setSize junk imOut _) in *.
  match goal with |- context [scatter ?b _ _] => set (body := b) end.
  destruct (scatter_voxels body (fun c => c) (fun '(i, j, _) => Z.quot (lin2 (sz im) sx sy i j (fun x y => value im x y 0)) ((sx - 1) * (sy - 1))) (sched (Loops.grid sx sy 1)) (sz out) (pixs out)) as (px & E & Wp & V & _).
  - destruct out; exact Ws.
  - intros [[i j] k] Hc. apply (proj1 (Hs _ _)) in Hc. apply grid_In in Hc as (Hi & Hj & Hk). rewrite Es. cbn [dw dh]. split; [unfold inside; cbn; lia|].
    unfold body, width, height. destruct (linear_ok (dw (sz im)) sx i S1 Hx Hi) as (xl & xh & cx & -> & Rxl & Rxh & Fx). destruct (linear_ok (dh (sz im)) sy j S2 Hy Hj) as (yl & yh & cy & -> & Ryl & Ryh & Fy). cbn [option_bind].
    assert (R : forall x y, 0 <= x < dw (sz im) -> 0 <= y < dh (sz im) -> rd (pixs im) (y * dw (sz im) + x) = Some (value im x y 0)).
    { intros x y Ax Ay. rewrite <- (value_at im x y 0 W ltac:(unfold inside; lia)). f_equal; unfold width; ring. }
    rewrite !R by assumption. cbn [option_bind]. unfold to_pixel.
    replace (value im xl yl 0 * (sx - 1 - cx) * (sy - 1 - cy) + value im xh yl 0 * cx * (sy - 1 - cy) + value im xl yh 0 * (sx - 1 - cx) * cy + value im xh yh 0 * cx * cy) with (lin2 (sz im) sx sy i j (fun x y => value im x y 0)).
    2: { unfold lin2. rewrite <- Fx, <- !Fy. ring. }
    pose proof (interp2_typed t im sx sy i j W T S Hx Hy Hi Hj) as I. unfold intyb. unfold inty in I. replace (_ && _) with true by lia. cbn [option_map]. do 2 f_equal. unfold voxel_offset. replace k with 0 by lia. ring.
  - intros [[i j] k] [[i' j'] k'] _ _ [= -> -> ->]. reflexivity.
  - rewrite E. cbn [option_bind]. eexists. split; [reflexivity|]. split; [exact Wp|]. split; [exact Es|].
    intros i j v Hv. pose proof (proj1 Hv) as Hin. cbn [sz] in Hin. rewrite Es in Hin. destruct Hin as (Hi & Hj & _). cbn in Hi, Hj.
    specialize (V (i, j, 0) ltac:(apply (proj2 (Hs _ _)); apply grid_In; lia)). cbn in V. apply (pixel_is_fun _ _ _ _ _ _ Hv V).
Qed.
Lemma interp3_typed t im sx sy sz' i j k : wf_img im -> typed_img t im -> solid_dims (sz im) -> 2 <= sx -> 2 <= sy -> 2 <= sz' -> 0 <= i < sx -> 0 <= j < sy -> 0 <= k < sz' ->
  inty t (Z.quot (lin3 (sz im) sx sy sz' i j k (value im)) ((sx - 1) * (sy - 1) * (sz' - 1))).
Proof.
  intros W T (S1 & S2 & S3) Hx Hy Hz Hi Hj Hk. apply quot_between; [apply Z.mul_pos_pos; [nia|lia]|]. rewrite <- !lin3_const with (s := sz im) (i := i) (j := j) (k := k).
  split; apply lin3_mono; try assumption; intros x y z _ _ _; apply (value_typed t im x y z T).
Qed.
Lemma trilinear_ok t junk sched im sx sy sz' imOut : legal_sched sched -> wf_img im -> typed_img t im -> solid_dims (sz im) -> wf_img imOut -> 2 <= sx -> 2 <= sy -> 2 <= sz' ->
  exists out, trilinear t junk sched im sx sy sz' imOut = Some (1, out) /\ wf_img out /\ sz out = Dims sx sy sz' /\
    forall i j k v, pixel_is out i j k v -> v = Z.quot (lin3 (sz im) sx sy sz' i j k (value im)) ((sx - 1) * (sy - 1) * (sz' - 1)).
Proof.
  intros Hs W T S Wo Hx Hy Hz. pose proof S as (S1 & S2 & S3). unfold trilinear. cbv zeta.
  destruct (LoopFacts.setSize_wf junk imOut (Dims sx sy sz') Wo) as (Ws & Es); [repeat split; cbn; lia|]. set (out := setSize junk imOut _) in *.
  match goal with |- context [scatter ?b _ _] => set (body := b) end.
  destruct (scatter_voxels body (fun c => c) (fun '(i, j, k) => Z.quot (lin3 (sz im) sx sy sz' i j k (value im)) ((sx - 1) * (sy - 1) * (sz' - 1))) (sched (Loops.grid sx sy sz')) (sz out) (pixs out)) as (px & E & Wp & V & _).
  - destruct out; exact Ws.
  - intros [[i j] k] Hc. apply (proj1 (Hs _ _)) in Hc. apply grid_In in Hc as (Hi & Hj & Hk). rewrite Es. cbn [dw dh]. split; [unfold inside; cbn; lia|].
    unfold body. change (depth im) with (dd (sz im)). destruct (linear_ok (dw (sz im)) sx i S1 Hx Hi) as (xl & xh & cx & Ex & Rxl & Rxh & Fx). destruct (linear_ok (dh (sz im)) sy j S2 Hy Hj) as (yl & yh & cy & Ey & Ryl & Ryh & Fy). destruct (linear_ok (dd (sz im)) sz' k S3 Hz Hk) as (zl & zh & cz & Ez & Rzl & Rzh & Fz).
    change (linear_axis (width im) sx i) with (linear_axis (dw (sz im)) sx i). change (linear_axis (height im) sy j) with (linear_axis (dh (sz im)) sy j). rewrite Ex, Ey, Ez. cbn [option_bind].
    rewrite !(value_at im) by (try exact W; unfold inside; lia). cbn [option_bind]. unfold to_pixel.
    match goal with |- context [intyb t (Z.quot ?n _)] => replace n with (lin3 (sz im) sx sy sz' i j k (value im)) end.
    2: { unfold lin3. rewrite <- Fx, <- !Fy, <- !Fz. ring. }
    pose proof (interp3_typed t im sx sy sz' i j k W T S Hx Hy Hz Hi Hj Hk) as I. unfold intyb. unfold inty in I. replace (_ && _) with true by lia. cbn [option_map]. do 2 f_equal. unfold voxel_offset. ring.
  - intros [[i j] k] [[i' j'] k'] _ _ [= -> -> ->]. reflexivity.
  - rewrite E. cbn [option_bind]. eexists. split; [reflexivity|]. split; [exact Wp|]. split; [exact Es|].
    intros i j k v Hv. pose proof (proj1 Hv) as Hin. cbn [sz] in Hin. rewrite Es in Hin. destruct Hin as (Hi & Hj & Hk). cbn in Hi, Hj, Hk.
    specialize (V (i, j, k) ltac:(apply (proj2 (Hs _ _)); apply grid_In; lia)). cbn in V. apply (pixel_is_fun _ _ _ _ _ _ Hv V).
Qed.

(** ** isBinary *)
Lemma binary_scan_ok px : forall keys, NoDup keys -> (length keys <= 2)%nat ->
  match binary_scan keys px with
  | Some ks => NoDup ks /\ (length ks <= 2)%nat /\ forall v, In v ks <-> In v keys \/ In v px
  | None => exists ks, NoDup ks /\ length ks = 3%nat /\ forall v, In v ks -> In v keys \/ In v px
  end.
Proof.
  induction px as [|v px IH]; intros keys N L; cbn [binary_scan].
  - split; [exact N|]. split; [exact L|]. intros v; cbn; tauto.
  - destruct (existsb (Z.eqb v) keys) eqn:X.
    + apply existsb_exists in X as (u & Hu & Eu). apply Z.eqb_eq in Eu. subst u. replace (Z.of_nat (length keys) >? 2) with false by lia. specialize (IH keys N L).
      destruct (binary_scan keys px) as [ks|].
      * destruct IH as (A & B & C). split; [exact A|]. split; [exact B|]. intros u. rewrite C. cbn. split; [tauto|]. intros [H|[<-|H]]; auto.
      * destruct IH as (ks & A & B & C). exists ks. split; [exact A|]. split; [exact B|]. intros u Hu'. destruct (C u Hu'); cbn; auto.
    + assert (X' : ~ In v keys). { intros H. assert (existsb (Z.eqb v) keys = true); [|congruence]. apply existsb_exists. exists v. split; [exact H|apply Z.eqb_refl]. }
      assert (N' : NoDup (v :: keys)) by (constructor; assumption).
      destruct (Z.gtb_spec (Z.of_nat (length (v :: keys))) 2).
      * exists (v :: keys). split; [exact N'|]. split; [cbn in *; lia|]. intros u [<-|Hu]; cbn; auto.
      * specialize (IH (v :: keys) N' ltac:(lia)). destruct (binary_scan (v :: keys) px) as [ks|].
        -- destruct IH as (A & B & C). split; [exact A|]. split; [exact B|]. intros u. rewrite C. cbn. tauto.
        -- destruct IH as (ks & A & B & C). exists ks. split; [exact A|]. split; [exact B|]. intros u Hu. destruct (C u Hu) as [[<-|H1]|H1]; cbn; auto.
Qed.
Lemma isBinary_ok im : isBinary im = true <-> two_valued im.
Proof.
  unfold isBinary. pose proof (binary_scan_ok (pixs im) [] (NoDup_nil _) ltac:(cbn; lia)) as H. destruct (binary_scan [] (pixs im)) as [ks|].
  - destruct H as (N & L & C). rewrite andb_true_iff, existsb_exists, Z.eqb_eq. split.
    + intros ((z & Hz & E) & L2). apply Z.eqb_eq in E. subst z. destruct ks as [|a [|b [|]]]; cbn in L2; try lia.
      inversion N as [|? ? Na Nb]; subst. assert (AB : a <> b) by (intros ->; apply Na; left; reflexivity).
      assert (P : forall v, In v (pixs im) <-> v = a \/ v = b) by (intros v; specialize (C v); cbn in C; split; [intros Hv; destruct (proj2 C (or_intror Hv)) as [E|[E|[]]]; auto|intros [->| ->]; destruct (proj1 C ltac:(auto)) as [[]|]; assumption]).
      destruct Hz as [E0|[E0|[]]]; subst; [exists b|exists a]; repeat split; try congruence; try (apply P; auto); intros v Hv; apply P in Hv; tauto.
    + intros (c & Nc & H0 & Hc & All). assert (In 0 ks) by (apply C; auto). assert (In c ks) by (apply C; auto). split; [exists 0; split; [assumption|reflexivity]|].
      assert (2 <= length ks)%nat; [|lia]. change 2%nat with (length [0; c]). apply NoDup_incl_length; [repeat constructor; [intros [E|[]]; congruence|intros []]|]. intros u [<-|[<-|[]]]; assumption.
  - split; [discriminate|]. intros (c & Nc & H0 & Hc & All). destruct H as (ks & N & L & C). exfalso.
    assert (length ks <= length [0%Z; c])%nat; [|cbn in *; lia]. apply NoDup_incl_length; [exact N|]. intros u Hu. destruct (C u Hu) as [[]|H1]. destruct (All u H1) as [->| ->]; cbn; auto.
Qed.
