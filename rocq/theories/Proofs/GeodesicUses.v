(** The functions built on reconstructions. *)
From Verif Require Export Proofs.GeodesicGeo.
From Verif Require Import Proofs.PixelProofs.

Lemma flows_joined_max se marker mask l x y z : (exists v, flows Z.max se marker mask x y z v /\ v <= l) <->
  joined se (fun b => b <= l) (fun x y z => exists a, pixel_is marker x y z a /\ a <= l) mask x y z.
Proof.
  split.
  - intros (v & H & L). revert L. induction H as [x y z a b Ha Hb|x y z x' y' z' v b Hf IH Hse Hb]; intros L.
    + apply (joined_seed _ _ _ _ x y z b); [exists a; split; [exact Ha|lia]|exact Hb|lia].
    + eapply joined_step; [apply IH; lia|exact Hse|exact Hb|cbn; lia].
  - intros H. induction H as [x y z b (a & Ha & La) Hb Lb|x y z x' y' z' b Hj (v & Hv & Lv) Hse Hb Lb].
    + exists (Z.max a b). split; [constructor; assumption|lia].
    + exists (Z.max v b). split; [eapply flow_step; eassumption|lia].
Qed.
Lemma flows_joined_min se marker mask l x y z : (exists v, flows Z.min se marker mask x y z v /\ l <= v) <->
  joined se (fun b => l <= b) (fun x y z => exists a, pixel_is marker x y z a /\ l <= a) mask x y z.
Proof.
  split.
  - intros (v & H & L). revert L. induction H as [x y z a b Ha Hb|x y z x' y' z' v b Hf IH Hse Hb]; intros L.
    + apply (joined_seed _ _ _ _ x y z b); [exists a; split; [exact Ha|lia]|exact Hb|lia].
    + eapply joined_step; [apply IH; lia|exact Hse|exact Hb|cbn; lia].
  - intros H. induction H as [x y z b (a & Ha & La) Hb Lb|x y z x' y' z' b Hj (v & Hv & Lv) Hse Hb Lb].
    + exists (Z.min a b). split; [constructor; assumption|lia].
    + exists (Z.min v b). split; [eapply flow_step; eassumption|lia].
Qed.

(** Level sets of the reconstructions. *)
Lemma dual_rebuilt_level se marker mask R x y z v l : dual_rebuilt se marker mask R -> pixel_is R x y z v ->
  (v <= l <-> joined se (fun b => b <= l) (fun x y z => exists a, pixel_is marker x y z a /\ a <= l) mask x y z).
Proof.
  intros (_ & _ & H) Hv. destruct (H _ _ _ _ Hv) as (A & B). rewrite <- flows_joined_max. split; [eauto|]. intros (u & Hu & L). specialize (B u Hu). lia.
Qed.
Lemma rebuilt_level se marker mask R x y z v l : rebuilt se marker mask R -> pixel_is R x y z v ->
  (l <= v <-> joined se (fun b => l <= b) (fun x y z => exists a, pixel_is marker x y z a /\ l <= a) mask x y z).
Proof.
  intros (_ & _ & H) Hv. destruct (H _ _ _ _ Hv) as (A & B). rewrite <- flows_joined_min. split; [eauto|]. intros (u & Hu & L). specialize (B u Hu). lia.
Qed.

Lemma joined_impl se (ok ok' : Z -> Prop) (seed seed' : Z -> Z -> Z -> Prop) im x y z : (forall b, ok b -> ok' b) -> (forall x y z b, seed x y z -> pixel_is im x y z b -> ok b -> seed' x y z) ->
  joined se ok seed im x y z -> joined se ok' seed' im x y z.
Proof.
  intros H1 H2 H. induction H as [x y z b Hs Hb Lb|x y z x' y' z' b Hj IH Hse Hb Lb]; [apply (joined_seed _ _ _ _ x y z b); eauto|eapply joined_step; eauto].
Qed.

Lemma pw1_spec f a : wf_img a -> pointwise1 f a (pw1 f a).
Proof.
  intros (W & L). split; [reflexivity|]. split; [split; [exact W|cbn; rewrite map_length; exact L]|]. intros x y z u (Hi & Hu).
  split; [exact Hi|]. cbn [sz pixs pw1]. rewrite rd_map, Hu. reflexivity.
Qed.
Lemma pw1_typed t f a : (forall v, inty t v -> inty t (f v)) -> typed_img t a -> typed_img t (pw1 f a).
Proof. unfold typed_img. cbn. intros H. rewrite !Forall_forall. intros T v Hv. apply in_map_iff in Hv as (u & <- & Hu). auto. Qed.
Lemma pw2_is f a b x y z u v : pixel_is a x y z u -> pixel_is b x y z v -> sz a = sz b -> pixel_is (pw2 f a b) x y z (f u v).
Proof.
  intros (Hi & Hu) (_ & Hv) E. split; [exact Hi|]. cbn [sz pixs pw2]. rewrite rd_map2, Hu. rewrite E, Hv. reflexivity.
Qed.
Lemma pw2_wf f a b : wf_img a -> wf_img b -> sz a = sz b -> wf_img (pw2 f a b).
Proof. intros (W & L) (_ & L') E. split; [exact W|]. cbn. rewrite map2_length. rewrite <- E in L'. lia. Qed.


Lemma u816_unsigned t : t = UINT8 \/ t = UINT16 -> is_signed t = false.
Proof. intros [-> | ->]; reflexivity. Qed.

(** ** hBuild, hDualBuild, minima, maxima *)
Lemma geo1_marker t se im out f : geo1_ok t se im out -> (forall v, inty t v -> inty t (f v)) -> geo_ok t se (pw1 f im) im (pw1 f im).
Proof.
  intros (Ht & W & E & T & I1 & I2 & P) Hf. split; [exact Ht|]. split; [apply pw1_spec; exact W|]. split; [exact W|]. split; [reflexivity|]. split; [reflexivity|].
  split; [apply pw1_typed; assumption|]. split; [exact T|]. auto.
Qed.

Lemma typed_is t im x y z v : typed_img t im -> pixel_is im x y z v -> inty t v.
Proof. intros T (_ & H). unfold typed_img in T. rewrite Forall_forall in T. apply T. eapply rd_In. exact H. Qed.

Lemma pointwise1_ext f g a r : (forall x y z v, pixel_is a x y z v -> f v = g v) -> pointwise1 f a r -> pointwise1 g a r.
Proof. intros H (S & W & K). split; [exact S|]. split; [exact W|]. intros x y z u Hu. rewrite <- (H _ _ _ _ Hu). auto. Qed.

Lemma hBuild_ok fuel t junk se h im out : geo1_ok t se im out -> inty t h -> enough im fuel ->
  exists S R, pointwise1 (fun v => Z.max (tmin t) (v - h)) im S /\ hBuild fuel t junk se h false im out = Some (Some (1, R)) /\ rebuilt se S im R /\ typed_img t R.
Proof.
  intros G Hh Hf. pose proof G as (Ht & W & E & T & _). pose proof (u816_unsigned t Ht) as U. exists (pw1 (fun v => px_sub t v h) im).
  assert (HS : forall v, inty t v -> px_sub t v h = Z.max (tmin t) (v - h)) by (intros v Hv; apply px_sub_unsigned; assumption).
  destruct (build_ok fuel t se (pw1 (fun v => px_sub t v h) im) im (pw1 (fun v => px_sub t v h) im)) as (R & HR & HB & TR); [|exact Hf|].
  { eapply geo1_marker; [exact G|]. intros v Hv. rewrite HS by exact Hv. unfold inty in *. pose proof (u816 t Ht). lia. }
  exists R. split; [eapply pointwise1_ext; [|apply pw1_spec; exact W]; intros x y z v Hv; apply HS; exact (typed_is t im x y z v T Hv)|].
  split; [|split; [exact HB|exact TR]]. unfold hBuild, h_source. rewrite same_size_true by auto. cbn [negb]. rewrite HR. reflexivity.
Qed.
Lemma hDualBuild_ok fuel t junk se h im out : geo1_ok t se im out -> inty t h -> enough im fuel ->
  exists S R, pointwise1 (fun v => Z.min (tmax t) (v + h)) im S /\ hDualBuild fuel t junk se h false im out = Some (Some (1, R)) /\ dual_rebuilt se S im R /\ typed_img t R.
Proof.
  intros G Hh Hf. pose proof G as (Ht & W & E & T & _). pose proof (u816_unsigned t Ht) as U. exists (pw1 (fun v => px_add t v h) im).
  assert (HS : forall v, inty t v -> px_add t v h = Z.min (tmax t) (v + h)) by (intros v Hv; apply px_add_unsigned; assumption).
  destruct (dualBuild_ok fuel t se (pw1 (fun v => px_add t v h) im) im (pw1 (fun v => px_add t v h) im)) as (R & HR & HB & TR); [|exact Hf|].
  { eapply geo1_marker; [exact G|]. intros v Hv. rewrite HS by exact Hv. unfold inty in *. pose proof (u816 t Ht). lia. }
  exists R. split; [eapply pointwise1_ext; [|apply pw1_spec; exact W]; intros x y z v Hv; apply HS; exact (typed_is t im x y z v T Hv)|].
  split; [|split; [exact HB|exact TR]]. unfold hDualBuild, h_source. rewrite same_size_true by auto. cbn [negb]. rewrite HR. reflexivity.
Qed.

Lemma inty_1 t : t = UINT8 \/ t = UINT16 -> inty t 1.
Proof. intros [-> | ->]; split; cbv; discriminate. Qed.

Lemma minima_ok fuel t junk se im out : geo1_ok t se im out -> enough im fuel ->
  exists O, minima fuel t junk se false im out = Some (Some (1, O)) /\ marks t (fun x y z v => v < tmax t /\ ~ can_descend se im x y z v) im O.
Proof.
  intros G Hf. pose proof G as (Ht & W & E & T & _). destruct (hDualBuild_ok fuel t junk se 1 im out G (inty_1 t Ht) Hf) as (S & R & HS & HR & HB & TR).
  exists (pw2 (px_low t) im R). split.
  { unfold hDualBuild in HR. unfold minima. destruct (negb (same_size im out)) eqn:Q; [rewrite same_size_true in Q by auto; discriminate|].
    destruct (dualBuild fuel t se false _ _ _) as [[r|]|]; cbn in HR |- *; try discriminate. injection HR as HR. rewrite HR. reflexivity. }
  pose proof HB as (SR & WR & _). split; [reflexivity|]. split; [apply pw2_wf; auto|]. intros x y z v Hv.
  destruct (pixel_exists R x y z WR) as (r & Hr); [rewrite SR; apply Hv|].
  pose proof (pw2_is (px_low t) im R x y z v r Hv Hr (eq_sym SR)) as K. unfold px_low in K.
  pose proof (dual_rebuilt_level se S im R x y z r v HB Hr) as L. pose proof (typed_is t R x y z r TR Hr) as Br. pose proof (typed_is t im x y z v T Hv) as Bv. unfold inty in *.
  destruct (v <? r) eqn:Q; [left|right]; (split; [|exact K]).
  - split; [lia|]. intros D. assert (r <= v); [|lia]. apply L. eapply joined_impl; [| |exact D]; [auto|].
    intros x0 y0 z0 b (a & Ha & La) _ _. destruct HS as (_ & _ & HS). exists (Z.min (tmax t) (a + 1)). split; [apply HS; exact Ha|lia].
  - intros (Lt & D). apply D. assert (r <= v) as J by lia. apply L in J. eapply joined_impl; [| |exact J]; [auto|].
    intros x0 y0 z0 b (a & Ha & La) Hb _. destruct HS as (_ & _ & HS). exists b. split; [exact Hb|].
    pose proof (pixel_is_fun _ _ _ _ _ _ Ha (HS _ _ _ _ Hb)). lia.
Qed.
Lemma maxima_ok fuel t junk se im out : geo1_ok t se im out -> enough im fuel ->
  exists O, maxima fuel t junk se false im out = Some (Some (1, O)) /\ marks t (fun x y z v => tmin t < v /\ ~ can_ascend se im x y z v) im O.
Proof.
  intros G Hf. pose proof G as (Ht & W & E & T & _). destruct (hBuild_ok fuel t junk se 1 im out G (inty_1 t Ht) Hf) as (S & R & HS & HR & HB & TR).
  exists (pw2 (px_grt t) im R). split.
  { unfold hBuild in HR. unfold maxima. destruct (negb (same_size im out)) eqn:Q; [rewrite same_size_true in Q by auto; discriminate|].
    destruct (build fuel t se false _ _ _) as [[r|]|]; cbn in HR |- *; try discriminate. injection HR as HR. rewrite HR. reflexivity. }
  pose proof HB as (SR & WR & _). split; [reflexivity|]. split; [apply pw2_wf; auto|]. intros x y z v Hv.
  destruct (pixel_exists R x y z WR) as (r & Hr); [rewrite SR; apply Hv|].
  pose proof (pw2_is (px_grt t) im R x y z v r Hv Hr (eq_sym SR)) as K. unfold px_grt in K.
  pose proof (rebuilt_level se S im R x y z r v HB Hr) as L. pose proof (typed_is t R x y z r TR Hr) as Br. pose proof (typed_is t im x y z v T Hv) as Bv. unfold inty in *.
  destruct (v >? r) eqn:Q; [left|right]; (split; [|exact K]).
  - split; [lia|]. intros D. assert (v <= r); [|lia]. apply L. eapply joined_impl; [| |exact D]; [auto|].
    intros x0 y0 z0 b (a & Ha & La) _ _. destruct HS as (_ & _ & HS). exists (Z.max (tmin t) (a - 1)). split; [apply HS; exact Ha|lia].
  - intros (Lt & D). apply D. assert (v <= r) as J by lia. apply L in J. eapply joined_impl; [| |exact J]; [auto|].
    intros x0 y0 z0 b (a & Ha & La) Hb _. destruct HS as (_ & _ & HS). exists b. split; [exact Hb|].
    pose proof (pixel_is_fun _ _ _ _ _ _ Ha (HS _ _ _ _ Hb)). lia.
Qed.

Lemma enough_sz im im' fuel : wf_img im -> wf_img im' -> sz im' = sz im -> enough im fuel -> enough im' fuel.
Proof. intros (_ & L) (_ & L') E. rewrite <- E in L. unfold enough. lia. Qed.

Lemma geo1_again t se im out R out' : geo1_ok t se im out -> wf_img R -> sz R = sz im -> typed_img t R -> sz out' = sz im -> geo1_ok t se R out'.
Proof. intros (Ht & W & E & T & I1 & I2 & P) WR SR TR Eo. split; [exact Ht|]. split; [exact WR|]. split; [congruence|]. split; [exact TR|]. rewrite SR. auto. Qed.

Lemma new_img_sz junk im : sz (new_img junk im) = sz im.
Proof. reflexivity. Qed.

Lemma hMinima_ok fuel t junk se h im out : geo1_ok t se im out -> inty t h -> enough im fuel ->
  exists S R O, pointwise1 (fun v => Z.min (tmax t) (v + h)) im S /\ dual_rebuilt se S im R /\ hMinima fuel t junk se h im out = Some (Some (1, O)) /\
    marks t (fun x y z v => v < tmax t /\ ~ can_descend se R x y z v) R O.
Proof.
  intros G Hh Hf. pose proof G as (Ht & W & E & T & I1 & I2 & P).
  destruct (hDualBuild_ok fuel t junk se h im (new_img junk im)) as (S & R & HS & HR & HB & TR); auto.
  { split; [exact Ht|]. split; [exact W|]. auto. }
  pose proof HB as (SR & WR & _). destruct (minima_ok fuel t junk se R out) as (O & HO & HM).
  - eapply geo1_again; eauto.
  - apply (enough_sz im); auto.
  - exists S, R, O. split; [exact HS|]. split; [exact HB|]. split; [|exact HM]. unfold hMinima. rewrite same_size_true by auto. cbn [negb]. rewrite HR. cbn [fuel_bind snd]. exact HO.
Qed.
Lemma hMaxima_ok fuel t junk se h im out : geo1_ok t se im out -> inty t h -> enough im fuel ->
  exists S R O, pointwise1 (fun v => Z.max (tmin t) (v - h)) im S /\ rebuilt se S im R /\ hMaxima fuel t junk se h im out = Some (Some (1, O)) /\
    marks t (fun x y z v => tmin t < v /\ ~ can_ascend se R x y z v) R O.
Proof.
  intros G Hh Hf. pose proof G as (Ht & W & E & T & I1 & I2 & P).
  destruct (hBuild_ok fuel t junk se h im (new_img junk im)) as (S & R & HS & HR & HB & TR); auto.
  { split; [exact Ht|]. split; [exact W|]. auto. }
  pose proof HB as (SR & WR & _). destruct (maxima_ok fuel t junk se R out) as (O & HO & HM).
  - eapply geo1_again; eauto.
  - apply (enough_sz im); auto.
  - exists S, R, O. split; [exact HS|]. split; [exact HB|]. split; [|exact HM]. unfold hMaxima. rewrite same_size_true by auto. cbn [negb]. rewrite HR. cbn [fuel_bind snd]. exact HO.
Qed.

(** ** fillHoles *)
Lemma setPixel_int s px x y z v : int_sized s -> Z.of_nat (length px) = dw s * dh s * dd s -> inside s x y z ->
  setPixel_xyz s px x y z v = Some (1, upd px (voxel_offset (dw s) (dh s) x y z) v).
Proof.
  intros (A & B & C & D) L Hi. pose proof (inside_range s x y z Hi) as R. pose proof Hi as (X & Y & Z0). unfold setPixel_xyz.
  rewrite !to_size_id by lia. destruct ((x <? dw s) && (y <? dh s) && (z <? dd s)) eqn:Q; [|lia].
  assert (z * dw s * dh s + y * dw s + x = voxel_offset (dw s) (dh s) x y z) as -> by (unfold voxel_offset; ring).
  rewrite to_size_id by lia. rewrite wr_upd by lia. reflexivity.
Qed.

Definition trip_dec (a b : Z * Z * Z) : {a = b} + {a <> b}.
Proof. repeat decide equality. Defined.

Lemma set_all s v l : int_sized s -> (forall x y z, In (x, y, z) l -> inside s x y z) -> forall px, Z.of_nat (length px) = dw s * dh s * dd s ->
  exists px', fold_opt (fun px '(x, y, z) => option_map snd (setPixel_xyz s px x y z v)) l px = Some px' /\ length px' = length px /\
    forall x y z, inside s x y z -> rd px' (voxel_offset (dw s) (dh s) x y z) = if in_dec trip_dec (x, y, z) l then Some v else rd px (voxel_offset (dw s) (dh s) x y z).
Proof.
  intros Hs. induction l as [|[[x0 y0] z0] l IH]; intros Hin px L; [exists px; split; [reflexivity|split; [reflexivity|]]; intros; destruct (in_dec _ _ _) as [[]|_]; reflexivity|].
  cbn [fold_opt]. pose proof (Hin x0 y0 z0 (or_introl eq_refl)) as Hi0. rewrite setPixel_int by assumption. cbn [option_map snd option_bind].
  destruct (IH (fun x y z H => Hin x y z (or_intror H)) (upd px (voxel_offset (dw s) (dh s) x0 y0 z0) v)) as (px' & E & L' & H'); [rewrite upd_length; exact L|].
  exists px'. split; [exact E|]. split; [rewrite L', upd_length; reflexivity|]. intros x y z Hi. rewrite H' by exact Hi.
  destruct (in_dec _ (x, y, z) l) as [I|I]; destruct (in_dec _ (x, y, z) ((x0, y0, z0) :: l)) as [J|J]; auto.
  - destruct J. right. exact I.
  - destruct J as [J|J]; [|contradiction]. injection J as -> -> ->. rewrite rd_upd, Z.eqb_refl. pose proof (inside_range s x y z Hi). cbn [andb].
    match goal with |- context [if ?c then _ else _] => destruct c eqn:Q end; [reflexivity|lia].
  - rewrite rd_upd. destruct (voxel_offset (dw s) (dh s) x0 y0 z0 =? voxel_offset (dw s) (dh s) x y z) eqn:Q; [|reflexivity].
    apply Z.eqb_eq in Q. destruct (voxel_inj s _ _ _ _ _ _ Hi0 Hi Q) as (-> & -> & ->). destruct J. left. reflexivity.
Qed.

Lemma faces_In s x y z : wf_dims s -> (In (x, y, z) (hole_faces s) <-> inside s x y z /\ on_border s x y z).
Proof.
  intros (A & B & C). unfold hole_faces, on_border, inside. rewrite !in_app_iff.
  assert (FX : In (x, y, z) (if dw s >? 2 then flat_map (fun k => flat_map (fun j => [(0, j, k); (dw s - 1, j, k)]) (zseq (dh s))) (zseq (dd s)) else []) <->
    2 < dw s /\ (x = 0 \/ x = dw s - 1) /\ 0 <= y < dh s /\ 0 <= z < dd s).
  { destruct (dw s >? 2) eqn:Q; [|cbn; lia]. rewrite in_flat_map. split.
    - intros (k & Hk & H). apply in_flat_map in H as (j & Hj & H). apply zseq_In in Hk, Hj. destruct H as [H|[H|[]]]; injection H as <- <- <-; lia.
    - intros (_ & Hx & Hy & Hz). exists z. split; [apply zseq_In; exact Hz|]. apply in_flat_map. exists y. split; [apply zseq_In; exact Hy|]. destruct Hx as [-> | ->]; cbn; auto. }
  assert (FY : In (x, y, z) (if dh s >? 2 then flat_map (fun k => flat_map (fun i => [(i, 0, k); (i, dh s - 1, k)]) (zseq (dw s))) (zseq (dd s)) else []) <->
    2 < dh s /\ (y = 0 \/ y = dh s - 1) /\ 0 <= x < dw s /\ 0 <= z < dd s).
  { destruct (dh s >? 2) eqn:Q; [|cbn; lia]. rewrite in_flat_map. split.
    - intros (k & Hk & H). apply in_flat_map in H as (j & Hj & H). apply zseq_In in Hk, Hj. destruct H as [H|[H|[]]]; injection H as <- <- <-; lia.
    - intros (_ & Hx & Hy & Hz). exists z. split; [apply zseq_In; exact Hz|]. apply in_flat_map. exists x. split; [apply zseq_In; exact Hy|]. destruct Hx as [-> | ->]; cbn; auto. }
  assert (FZ : In (x, y, z) (if dd s >? 2 then flat_map (fun j => flat_map (fun i => [(i, j, 0); (i, j, dd s - 1)]) (zseq (dw s))) (zseq (dh s)) else []) <->
    2 < dd s /\ (z = 0 \/ z = dd s - 1) /\ 0 <= x < dw s /\ 0 <= y < dh s).
  { destruct (dd s >? 2) eqn:Q; [|cbn; lia]. rewrite in_flat_map. split.
    - intros (k & Hk & H). apply in_flat_map in H as (j & Hj & H). apply zseq_In in Hk, Hj. destruct H as [H|[H|[]]]; injection H as <- <- <-; lia.
    - intros (_ & Hx & Hy & Hz). exists y. split; [apply zseq_In; exact Hz|]. apply in_flat_map. exists x. split; [apply zseq_In; exact Hy|]. destruct Hx as [-> | ->]; cbn; auto. }
  rewrite FX, FY, FZ. clear FX FY FZ. lia.
Qed.

Lemma hole_marker_ok t im : wf_img im -> int_sized (sz im) ->
  exists M, hole_marker t im = Some M /\ wf_img M /\ sz M = sz im /\ typed_img t M /\
    forall x y z, inside (sz im) x y z -> (on_border (sz im) x y z /\ pixel_is M x y z (tmin t)) \/ (~ on_border (sz im) x y z /\ pixel_is M x y z (tmax t)).
Proof.
  intros W Hs. unfold hole_marker. destruct (set_all (sz im) (tmin t) (hole_faces (sz im)) Hs) with (px := map (fun _ : Z => tmax t) (pixs im)) as (px & E & L & H).
  { intros x y z Hi. apply faces_In in Hi; [apply Hi|apply W]. }
  { rewrite map_length. apply W. }
  rewrite E. cbn [option_bind]. eexists. split; [reflexivity|]. assert (WM : wf_img (Img (sz im) px)) by (split; [apply W|cbn; rewrite L, map_length; apply W]).
  assert (K : forall x y z, inside (sz im) x y z -> (on_border (sz im) x y z /\ pixel_is (Img (sz im) px) x y z (tmin t)) \/ (~ on_border (sz im) x y z /\ pixel_is (Img (sz im) px) x y z (tmax t))).
  { intros x y z Hi. specialize (H x y z Hi). destruct (in_dec _ (x, y, z) (hole_faces (sz im))) as [I|I]; rewrite (faces_In (sz im) x y z (proj1 W)) in I.
    - left. split; [apply I|]. split; [exact Hi|exact H].
    - right. split; [tauto|]. split; [exact Hi|]. cbn [sz pixs]. rewrite H, rd_map. destruct (pixel_exists im x y z W Hi) as (u & _ & Hu). rewrite Hu. reflexivity. }
  split; [exact WM|]. split; [reflexivity|]. split; [|exact K].
  unfold typed_img. cbn [pixs]. apply Forall_forall. intros v Hv. apply In_rd in Hv as (i & Ri & Hi).
  rewrite L, map_length in Ri. destruct (voxel_exists (sz im) i) as (x & y & z & Hin & ->); [apply int_small; exact Hs|destruct W as (_ & LW); lia|].
  assert (pixel_is (Img (sz im) px) x y z v) as P by (split; assumption).
  destruct (K x y z Hin) as [(_ & Q)|(_ & Q)]; rewrite (pixel_is_fun _ _ _ _ _ _ P Q); [apply inty_min|apply inty_max].
Qed.

Lemma fillHoles_ok fuel t se im out : geo1_ok t se im out -> enough im fuel ->
  exists R, fillHoles fuel t se false im out = Some (Some (1, R)) /\ sz R = sz im /\ wf_img R /\ typed_img t R /\ le_img im R /\
    forall x y z v l, pixel_is R x y z v -> l < tmax t -> (v <= l <-> joined se (fun b => b <= l) (on_border (sz im)) im x y z).
Proof.
  intros (Ht & W & E & T & I1 & I2 & P) Hf. destruct (hole_marker_ok t im W I1) as (M & EM & WM & SM & TM & HM).
  destruct (dualBuild_ok fuel t se M im out) as (R & HR & HB & TR); [|exact Hf|].
  { split; [exact Ht|]. split; [exact WM|]. split; [exact W|]. split; [exact SM|]. split; [exact E|]. auto. }
  exists R. split; [unfold fillHoles; rewrite same_size_true by auto; cbn [negb]; rewrite EM; cbn [option_bind]; rewrite HR; reflexivity|].
  pose proof HB as (SR & WR & _). split; [exact SR|]. split; [exact WR|]. split; [exact TR|]. split.
  - intros x y z u v Hu Hv. destruct (pixel_exists M x y z WM) as (a & Ha); [rewrite SM; apply Hu|]. apply (dual_rebuilt_between se M im R x y z a u v HB Ha Hu Hv).
  - intros x y z v l Hv Hl. rewrite (dual_rebuilt_level se M im R x y z v l HB Hv). split; intros J; (eapply joined_impl; [| |exact J]; [auto|]); intros x0 y0 z0 b.
    + intros (a & Ha & La) Hb _. destruct (HM x0 y0 z0 (proj1 Hb)) as [(B & _)|(_ & Q)]; [exact B|]. pose proof (pixel_is_fun _ _ _ _ _ _ Ha Q). lia.
    + intros B Hb Lb. destruct (HM x0 y0 z0 (proj1 Hb)) as [(_ & Q)|(B' & _)]; [|contradiction]. exists (tmin t). split; [exact Q|].
      pose proof (typed_is t im _ _ _ _ T Hb) as K. unfold inty in K. cbv beta in Lb. lia.
Qed.

(** ** buildOpen, buildClose *)
Lemma buildOpen_ok fuel t junk cs se im out : geo1_ok t se im out -> call_ok cs false im (new_img junk im) -> good_se se (sz im) -> enough im fuel ->
  exists E R, erode junk cs (tmax t) se false im (new_img junk im) = Some (1, E) /\ buildOpen fuel t junk cs se false im out = Some (Some (1, R)) /\
    rebuilt se E im R /\ typed_img t R.
Proof.
  intros (Ht & W & E & T & I1 & I2 & P) (C1 & C2 & C3 & C4 & C5) HG Hf.
  pose proof (erode_eq t junk se im C1 HG cs false (new_img junk im) C5 C2 C3 C4) as HE. set (D := mk_img (sz im) (En t (sz im) se (pxv im))) in *.
  destruct (build_ok fuel t se D im out) as (R & HR & HB & TR); [|exact Hf|].
  { split; [exact Ht|]. split; [apply mk_img_wf; apply W|]. split; [exact W|]. split; [reflexivity|]. split; [exact E|]. split; [|auto].
    apply typed_mk. apply en_typed; [eapply gse_ne; exact HG|]. apply typed_pxv; assumption. }
  exists D, R. split; [exact HE|]. split; [|auto]. unfold buildOpen. rewrite same_size_true by auto. cbn [negb]. rewrite HE. cbn [option_bind snd]. rewrite HR. reflexivity.
Qed.
Lemma buildClose_ok fuel t junk cs se im out : geo1_ok t se im out -> call_ok cs false im (new_img junk im) -> good_se se (sz im) -> enough im fuel ->
  exists D R, dilate junk cs (tmin t) se false im (new_img junk im) = Some (1, D) /\ buildClose fuel t junk cs se false im out = Some (Some (1, R)) /\
    dual_rebuilt se D im R /\ typed_img t R.
Proof.
  intros (Ht & W & E & T & I1 & I2 & P) (C1 & C2 & C3 & C4 & C5) HG Hf.
  pose proof (dilate_eq t junk se im C1 HG cs false (new_img junk im) C5 C2 C3 C4) as HE. set (D := mk_img (sz im) (Dn t (sz im) se (pxv im))) in *.
  destruct (dualBuild_ok fuel t se D im out) as (R & HR & HB & TR); [|exact Hf|].
  { split; [exact Ht|]. split; [apply mk_img_wf; apply W|]. split; [exact W|]. split; [reflexivity|]. split; [exact E|]. split; [|auto].
    apply typed_mk. apply dn_typed; [eapply gse_ne; exact HG|]. apply typed_pxv; assumption. }
  exists D, R. split; [exact HE|]. split; [|auto]. unfold buildClose. rewrite same_size_true by auto. cbn [negb]. rewrite HE. cbn [option_bind snd]. rewrite HR. reflexivity.
Qed.
