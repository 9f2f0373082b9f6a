From Verif Require Export Model.Draw Spec.DrawSpec Proofs.LoopFacts.
From Coq Require Import Lia.

Lemma painted_refl v (S : Z -> Z -> Z -> Prop) im : wf_img im ->
  (forall x y z, inside (sz im) x y z -> ~ S x y z) -> painted v S im im.
Proof.
  intros W H. split; [reflexivity|]. split; [exact W|]. intros x y z o o' P P'. right.
  split; [apply H; apply P|]. exact (pixel_is_fun _ _ _ _ _ _ P' P).
Qed.

Lemma painted_iff v (S S' : Z -> Z -> Z -> Prop) im im' : painted v S im im' ->
  (forall x y z, inside (sz im) x y z -> (S x y z <-> S' x y z)) -> painted v S' im im'.
Proof.
  intros (E & W & H) I. split; [exact E|]. split; [exact W|]. intros x y z o o' P P'.
  destruct (I x y z) as (A & B); [apply P|]. destruct (H x y z o o' P P') as [(a & b)|(a & b)]; [left|right]; tauto.
Qed.

Lemma painted_trans v (S1 S2 : Z -> Z -> Z -> Prop) im im1 im2 : wf_img im -> painted v S1 im im1 -> painted v S2 im1 im2 ->
  painted v (fun x y z => S1 x y z \/ S2 x y z) im im2.
Proof.
  intros W (E1 & W1 & H1) (E2 & W2 & H2). split; [congruence|]. split; [exact W2|]. intros x y z o o' P P'.
  destruct (pixel_exists im1 x y z W1) as (o1 & P1). { rewrite E1. apply P. }
  destruct (H1 x y z o o1 P P1) as [(a & b)|(a & b)]; destruct (H2 x y z o1 o' P1 P') as [(c & d)|(c & d)]; subst; tauto.
Qed.

Lemma painted_wf v S im im' : painted v S im im' -> wf_img im'.
Proof. intros (_ & W & _). exact W. Qed.
Lemma painted_sz v S im im' : painted v S im im' -> sz im' = sz im.
Proof. intros (E & _). exact E. Qed.

Lemma triple_dec (p q : Z * Z * Z) : {p = q} + {p <> q}.
Proof. repeat decide equality. Qed.

(** A list of addresses written with the same value. *)
Lemma painted_addr v (S : Z -> Z -> Z -> Prop) im px' : wf_img im -> length px' = length (pixs im) ->
  (forall x y z, inside (sz im) x y z ->
     let a := voxel_offset (dw (sz im)) (dh (sz im)) x y z in
     (S x y z /\ rd px' a = Some v) \/ (~ S x y z /\ rd px' a = rd (pixs im) a)) ->
  painted v S im (Img (sz im) px').
Proof.
  intros (W & L) E H. split; [reflexivity|]. split; [split; [exact W|cbn; rewrite E; exact L]|].
  intros x y z o o' (I & P) (_ & P'). cbn in P'. destruct (H x y z I) as [(a & b)|(a & b)]; [left|right]; split; try assumption; congruence.
Qed.

Lemma paint_ok v im ps : wf_img im -> (forall x y z, In (x, y, z) ps -> inside (sz im) x y z) ->
  exists im', paint v im ps = Some im' /\ painted v (fun x y z => In (x, y, z) ps) im im'.
Proof.
  intros W H. pose proof W as (Wd & L).
  destruct (scatter_ok (paint_body (sz im) v) (fun '(x, y, z) => voxel_offset (dw (sz im)) (dh (sz im)) x y z) (fun _ => v) ps (pixs im))
    as (px' & E & L' & V & K).
  - intros ((x, y), z) Hi. specialize (H x y z Hi). split.
    + unfold paint_body. rewrite slice_access_wf by assumption. reflexivity.
    + rewrite L. apply inside_range. exact H.
  - reflexivity.
  - unfold paint. rewrite E. eexists. split; [reflexivity|]. apply painted_addr; try assumption.
    intros x y z I a. destruct (in_dec triple_dec (x, y, z) ps) as [Hi|Hi]; [left|right]; split; try assumption.
    + exact (V _ Hi).
    + apply K. intros ((x', y'), z') Hj Ea. subst a. apply voxel_inj in Ea; [|apply H; exact Hj|exact I].
      destruct Ea as (-> & -> & ->). contradiction.
Qed.

Lemma fill_ok v im x0 y z n : wf_img im -> 0 <= x0 -> 0 <= n -> x0 + n <= width im -> 0 < width im -> 0 <= y < height im -> 0 <= z < depth im ->
  exists im', fill_from v im x0 y z n = Some im' /\ painted v (rect x0 y n 1 z) im im'.
Proof.
  intros W H0 Hn Hx Hw Hy Hz. pose proof W as (Wd & L). pose proof Wd as (D1 & D2 & D3). unfold width, height, depth in *.
  destruct im as ([w h d], px). cbn [sz dw dh dd pixs] in *.
  assert (slice_access (Dims w h d) x0 y z = Some (voxel_offset w h x0 y z)) as E.
  { unfold slice_access. assert (exists v0, rd (restruct_slices (Dims w h d)) z = Some v0 /\ v0 = z * h) as (v0 & E & ->).
    { unfold restruct_slices. rewrite rd_map, rd_zseq by (cbn; lia). cbn. eauto. }
    rewrite E. cbn [option_bind]. pose proof (slice_access_wf (Dims w h d) 0 y z Wd) as A. unfold slice_access in A. rewrite E in A. cbn [option_bind] in A.
    destruct (rd (restruct_lines (Dims w h d)) (z * h + y)) as [s0|] eqn:E2.
    - cbn in A |- *. f_equal. specialize (A ltac:(unfold inside; cbn; lia)). injection A as A. unfold voxel_offset in *. lia.
    - cbn in A. specialize (A ltac:(unfold inside; cbn; lia)). discriminate. }
  unfold fill_from. cbn [sz pixs]. rewrite E. cbn [option_bind].
  assert (forall k, 0 <= k < n -> inside (Dims w h d) (x0 + k) y z) as I. { intros k Hk. unfold inside. cbn. lia. }
  destruct (scatter_ok (fun i => Some (i, v)) (fun i => i) (fun _ => v) (zrange (voxel_offset w h x0 y z) n) px) as (px' & E' & L' & V & K).
  - intros i Hi. split; [reflexivity|]. apply zrange_In in Hi. rewrite L.
    pose proof (inside_range (Dims w h d) (x0 + (i - voxel_offset w h x0 y z)) y z (I (i - voxel_offset w h x0 y z) ltac:(lia))) as R. cbn in R.
    unfold voxel_offset in *. lia.
  - reflexivity.
  - unfold scatter in E'. cbn [option_bind fst snd] in E'. rewrite E'. eexists. split; [reflexivity|].
    apply (painted_addr v (rect x0 y n 1 z) (Img (Dims w h d) px)); [exact W|exact L'|]. cbn [sz dw dh pixs]. intros x' y' z' I'.
    assert (rect x0 y n 1 z x' y' z' \/ ~ rect x0 y n 1 z x' y' z') as [R|R] by (unfold rect; lia).
    + left. split; [exact R|]. destruct R as (? & ? & ->). replace y' with y by lia. apply V. apply zrange_In. unfold voxel_offset. lia.
    + right. split; [exact R|]. apply K. intros i Hi ->. apply zrange_In in Hi.
      assert (voxel_offset w h (x0 + (voxel_offset w h x' y' z' - voxel_offset w h x0 y z)) y z = voxel_offset w h x' y' z') as Ev by (unfold voxel_offset; lia).
      apply (voxel_inj (Dims w h d)) in Ev; [|apply I; lia|exact I']. apply R. unfold rect. lia.
Qed.

(** Steps that each paint a shape. *)
Lemma painted_fold {A} v (f : img -> A -> option img) (S : A -> Z -> Z -> Z -> Prop) s l im : wf_img im -> sz im = s ->
  (forall a im, In a l -> wf_img im -> sz im = s -> exists im', f im a = Some im' /\ painted v (S a) im im') ->
  exists im', fold_opt f l im = Some im' /\ painted v (fun x y z => exists a, In a l /\ S a x y z) im im'.
Proof.
  intros W Es H.
  destruct (fold_opt_inv (fun done im' => painted v (fun x y z => exists a, In a done /\ S a x y z) im im') f l im) as (im' & E & P).
  - apply painted_refl; [exact W|]. intros x y z _ (a & [] & _).
  - intros done a todo b El P. destruct (H a b) as (b' & E & P'); [rewrite El; apply in_elt|exact (painted_wf _ _ _ _ P)|rewrite (painted_sz _ _ _ _ P); exact Es|].
    exists b'. split; [exact E|]. eapply painted_iff; [exact (painted_trans _ _ _ _ _ _ W P P')|].
    intros x y z _. cbn. split.
    + intros [(a' & Ha & Hs)|Hs]; [exists a'|exists a]; (split; [apply in_app_iff; cbn; tauto|exact Hs]).
    + intros (a' & Ha & Hs). apply in_app_iff in Ha as [Ha|[<-|[]]]; [left; eauto|right; exact Hs].
  - eauto.
Qed.

Lemma to_size_id z : 0 <= z < 2 ^ 64 -> to_size z = z.
Proof. intros H. apply Z.mod_small. exact H. Qed.
Lemma to_size_add x w : to_size (to_size x + w - 1) = to_size (x + w - 1).
Proof. unfold to_size. replace (x mod 2 ^ 64 + w - 1) with (x mod 2 ^ 64 + (w - 1)) by lia. rewrite Zplus_mod_idemp_l. f_equal. lia. Qed.
Lemma to_int_id z : - 2 ^ 31 <= z < 2 ^ 31 -> to_int z = z.
Proof. intros H. unfold to_int. rewrite Z.mod_small by lia. lia. Qed.
Lemma int_ck_ok z : - 2 ^ 31 <= z < 2 ^ 31 -> int_ck z = Some z.
Proof. intros H. unfold int_ck. replace (_ && _) with true by lia. reflexivity. Qed.

(** Filled rectangles. *)
Lemma rectangle_fill_ok v im x0 y0 w h z : wf_img im -> 0 < width im < 2 ^ 31 -> 0 < height im < 2 ^ 31 -> 0 <= z < depth im ->
  0 <= x0 -> 0 <= w -> x0 + w <= width im -> - 2 ^ 31 <= y0 < 2 ^ 31 -> 0 <= h < 2 ^ 63 -> 0 < y0 + h ->
  exists im', drawRectangle im x0 y0 w h v true z = Some (1, im') /\ painted v (rect x0 y0 w h z) im im'.
Proof.
  intros W Hw Hh Hz Hx0 Hw0 Hx Hy Hh0 Hy0.
  unfold drawRectangle. replace (z <? depth im) with true by lia. cbn [negb].
  rewrite to_size_add. rewrite (to_size_id (y0 + h - 1)) by lia. rewrite (to_size_id (height im - 1)) by lia.
  replace (x0 >=? 0) with true by lia.
  set (y1 := if y0 + h - 1 <? height im then y0 + h - 1 else height im - 1).
  set (y0' := if y0 >=? 0 then y0 else 0).
  destruct (painted_fold v (fun im j => fill_from v im x0 j z w) (fun j => rect x0 j w 1 z) (sz im) (zrange y0' (y1 - y0' + 1)) im W eq_refl)
    as (im' & E & P).
  - intros j b Hj Wb Es. apply zrange_In in Hj. apply fill_ok; unfold width, height, depth in *; rewrite ?Es; try assumption; try lia;
      subst y0' y1; destruct (y0 >=? 0) eqn:Q1; destruct (y0 + h - 1 <? dh (sz im)) eqn:Q2; lia.
  - rewrite E. exists im'. split; [reflexivity|]. eapply painted_iff; [exact P|]. intros x y z' I. unfold rect. split.
    + intros (j & Hj & R). apply zrange_In in Hj. subst y0' y1. destruct (y0 >=? 0) eqn:Q1; destruct (y0 + h - 1 <? height im) eqn:Q2; lia.
    + intros R. exists y. split; [|lia]. apply zrange_In. destruct I as (_ & I & _). unfold height in *. subst y0' y1.
      destruct (y0 >=? 0) eqn:Q1; destruct (y0 + h - 1 <? dh (sz im)) eqn:Q2; lia.
Qed.

(** Outlines. *)
Lemma rectangle_outline_ok v im x0 y0 w h z : wf_img im -> width im < 2 ^ 31 -> height im < 2 ^ 31 -> 0 <= z < depth im ->
  0 <= x0 -> 0 < w -> x0 + w <= width im -> 0 <= y0 -> 0 < h -> y0 + h <= height im ->
  exists im', drawRectangle im x0 y0 w h v false z = Some (1, im') /\ painted v (outline x0 y0 w h z) im im'.
Proof.
  intros W Hw Hh Hz Hx0 Hw0 Hx Hy Hh0 Hy0.
  unfold drawRectangle. replace (z <? depth im) with true by lia. cbn [negb].
  rewrite !to_size_add. rewrite (to_size_id (y0 + h - 1)), (to_size_id (x0 + w - 1)) by lia.
  replace (x0 >=? 0) with true by lia. replace (y0 >=? 0) with true by lia.
  replace (y0 + h - 1 <? height im) with true by lia. replace (x0 + w - 1 <? width im) with true by lia.
  destruct (fill_ok v im x0 y0 z w) as (im1 & E1 & P1); try lia; [exact W|]. rewrite E1. cbn [option_bind].
  pose proof (painted_wf _ _ _ _ P1) as W1. pose proof (painted_sz _ _ _ _ P1) as Z1.
  destruct (fill_ok v im1 x0 (y0 + h - 1) z w) as (im2 & E2 & P2); unfold width, height, depth in *; rewrite ?Z1; try lia; [exact W1|]. rewrite E2. cbn [option_bind].
  pose proof (painted_wf _ _ _ _ P2) as W2. pose proof (painted_sz _ _ _ _ P2) as Z2.
  rewrite int_ck_ok by lia. cbn [option_bind].
  match goal with |- context [paint v im2 ?l] => set (ps := l) end.
  assert (forall x y z', In (x, y, z') ps <-> (x = x0 \/ x = x0 + w - 1) /\ y0 < y < y0 + h /\ z' = z) as IP.
  { intros x y z'. unfold ps. rewrite in_flat_map. split.
    - intros (j & Hj & Hi). apply zrange_In in Hj. cbn in Hi. destruct Hi as [[= <- <- <-]|[[= <- <- <-]|[]]]; lia.
    - intros (Hx' & Hy' & ->). exists y. split; [apply zrange_In; lia|]. cbn. destruct Hx' as [->| ->]; auto. }
  destruct (paint_ok v im2 ps W2) as (im3 & E3 & P3).
  - intros x y z' Hi. apply IP in Hi. rewrite Z2, Z1. unfold inside. lia.
  - rewrite E3. exists im3. split; [reflexivity|].
    eapply painted_iff; [exact (painted_trans _ _ _ _ _ _ W (painted_trans _ _ _ _ _ _ W P1 P2) P3)|].
    intros x y z' I. cbn. rewrite IP. unfold outline, rect. lia.
Qed.
