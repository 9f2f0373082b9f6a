(** Proofs about barycentres, moments and covariances. *)
From Coq Require Import Lqa.
From Verif Require Proofs.LoopFacts.
From Verif Require Export Proofs.MomentsProofs.
From Coq Require Import QArith Qfield.
Local Open Scope Z_scope.

(** ** The barycentre *)
Lemma bary_ok im : wf_img im -> 0 < dw (sz im) -> exact_order1 im ->
  measBarycenter im = Some ([ratio (weighted im px_x) (weighted im one3); ratio (weighted im px_y) (weighted im one3)] ++
                            (if dd (sz im) >? 1 then [ratio (weighted im px_z) (weighted im one3)] else [])).
Proof.
  intros W W0 (B1 & Bx & By & Bz). unfold measBarycenter. change [0; 0; 0; 0] with (repeat 0 (Z.to_nat 4)).
  rewrite (positions im bary_terms W W0 4 false [px_x; px_y; px_z; one3]); [reflexivity|reflexivity| |].
  - intros v x y z. cbn [map]. unfold bary_terms, px_x, px_y, px_z, one3. rewrite Z.mul_1_r. reflexivity.
  - intros f [<-|[<-|[<-|[<-|[]]]]]; assumption.
Qed.

Lemma weighted_bounds im f lo hi : wf_img im -> (forall x y z v, pixel_is im x y z v -> 0 <= v /\ (v <> 0 -> lo <= f x y z <= hi)) ->
  lo * weighted im one3 <= weighted im f <= hi * weighted im one3.
Proof.
  intros W H. unfold weighted. assert (G : forall p, In p (grid (sz im)) -> let '(x, y, z) := p in 0 <= value im x y z /\ (value im x y z <> 0 -> lo <= f x y z <= hi)).
  { intros ((x & y) & z) Hp. apply grid_In in Hp. destruct (LoopFacts.pixel_exists im x y z W Hp) as (v & Hv). rewrite (value_pixel_is _ _ _ _ _ Hv). apply (H x y z v Hv). }
  induction (grid (sz im)) as [|((x & y) & z) l IH]; [cbn; lia|]. cbn [map]. rewrite !Zsum_cons. specialize (IH (fun p Hp => G p (or_intror Hp))). pose proof (G (x, y, z) (or_introl eq_refl)) as (G1 & G2). unfold one3 at 1 3. nia.
Qed.
Lemma ratio_bounds a b lo hi q : 0 < b -> lo * b <= a <= hi * b -> ratio a b = Some q -> (inject_Z lo <= q /\ q <= inject_Z hi)%Q.
Proof.
  intros Hb H. unfold ratio. replace (b =? 0) with false by lia. intros E. injection E as <-. assert (Qb : (0 < inject_Z b)%Q) by (apply inj_pos; exact Hb).
  split; [apply Qle_shift_div_l|apply Qle_shift_div_r]; try exact Qb; rewrite <- inject_Z_mult, <- Zle_Qle; lia.
Qed.

(** ** Moments *)
Lemma zero_bound im : weight_bound im (fun _ _ _ => 0).
Proof. unfold weight_bound. induction (grid (sz im)) as [|((x & y) & z) l IH]; [cbn; lia|]. cbn [map]. rewrite Zsum_cons, Z.mul_0_r. cbn [Z.abs]. lia. Qed.

Lemma moments_func_ok b im : wf_img im -> 0 < dw (sz im) -> exact_order2 im -> moments_func b im = Some (moment_values im).
Proof.
  intros W W0 ((B1 & Bx & By & Bz) & Bxy & Bxz & Byz & Bxx & Byy & Bzz). unfold moments_func, moment_values. change (depth im) with (dd (sz im)). change (repeat 0 10) with (repeat 0 (Z.to_nat 10)).
  destruct (dd (sz im) >? 1) eqn:E.
  - rewrite (positions im (moment_terms true) W W0 10 b [one3; px_x; px_y; times px_x px_y; times px_x px_x; times px_y px_y; px_z; times px_x px_z; times px_y px_z; times px_z px_z]); [reflexivity|reflexivity| |].
    + intros v x y z. cbn [map]. unfold moment_terms, times, px_x, px_y, px_z, one3. cbn [app]. rewrite !Z.mul_1_r, !Z.mul_assoc. reflexivity.
    + intros f Hf. cbn in Hf. repeat (destruct Hf as [<-|Hf]; [assumption|]). destruct Hf.
  - set (zf := fun _ _ _ : Z => 0). rewrite (positions im (moment_terms false) W W0 10 b [one3; px_x; px_y; times px_x px_y; times px_x px_x; times px_y px_y; zf; zf; zf; zf]); [reflexivity|reflexivity| |].
    + intros v x y z. cbn [map]. unfold moment_terms, times, px_x, px_y, px_z, one3, zf. cbn [app]. rewrite !Z.mul_1_r, !Z.mul_assoc, Z.mul_0_r. reflexivity.
    + intros f Hf. cbn in Hf. repeat (destruct Hf as [<-|Hf]; [first [assumption|apply zero_bound]|]). destruct Hf.
Qed.

(** ** Centred moments *)
Lemma second_expand im (f g : Z -> Z -> Z -> Z) (a b : Q) :
  (qweighted im (fun x y z => (inject_Z (f x y z) - a) * (inject_Z (g x y z) - b)) ==
   inject_Z (weighted im (times f g)) - b * inject_Z (weighted im f) - a * inject_Z (weighted im g) + a * b * inject_Z (weighted im one3))%Q.
Proof.
  unfold qweighted, weighted. induction (grid (sz im)) as [|((x & y) & z) l IH]; [cbn; ring|]. cbn [map]. rewrite !Zsum_cons. unfold qsum in *. cbn [fold_right]. rewrite IH. unfold times, one3. rewrite !inject_Z_plus, !inject_Z_mult. ring.
Qed.
Lemma second_value im f g : weighted im one3 <> 0 ->
  (second im f g == inject_Z (weighted im (times f g)) - inject_Z (weighted im g) * inject_Z (weighted im f) / inject_Z (weighted im one3))%Q.
Proof.
  intros H. unfold second. rewrite second_expand. unfold centre. field. intros E. apply H. exact (proj1 (inject_Z_injective _ 0) E).
Qed.
Lemma second_sym im f g : (second im f g == second im g f)%Q.
Proof. unfold second, qweighted. induction (grid (sz im)) as [|((x & y) & z) l IH]; [reflexivity|]. unfold qsum in *. cbn [map fold_right]. rewrite IH. ring. Qed.

Lemma centred_ok b im : wf_img im -> 0 < dw (sz im) -> exact_order2 im -> 0 < weighted im one3 ->
  exists l, measMoments b true im = Some l /\ Forall2 Qeq l (centred_values im).
Proof.
  intros W W0 B M. unfold measMoments. rewrite (moments_func_ok b im W W0 B). cbn [option_map]. eexists. split; [reflexivity|].
  unfold centerMoments, moment_values, centred_values. assert (E : Qle_bool (1 # 100000000) (inject_Z (weighted im one3)) = true).
  { apply Qle_bool_iff. unfold Qle, inject_Z. cbn. lia. }
  destruct (dd (sz im) >? 1); change (znth 0 (weighted im one3 :: _) 0) with (weighted im one3); rewrite E; cbn [negb].
  - change (Z.of_nat (length _) =? 10) with true. cbn iota. repeat constructor; try reflexivity; symmetry; apply second_value; lia.
  - change (Z.of_nat (length _) =? 10) with false. cbn iota. repeat constructor; try reflexivity; symmetry; apply second_value; lia.
Qed.

Lemma quad_nonneg im (f g h : Z -> Z -> Z -> Z) (a b c : Q) : wf_img im -> (forall x y z v, pixel_is im x y z v -> 0 <= v) ->
  (0 <= a * a * second im f f + b * b * second im g g + c * c * second im h h + 2 * a * b * second im f g + 2 * a * c * second im f h + 2 * b * c * second im g h)%Q.
Proof.
  intros W H. unfold second. generalize (centre im f) (centre im g) (centre im h). intros cf cg ch. unfold qweighted.
  assert (G : forall p, In p (grid (sz im)) -> let '(x, y, z) := p in 0 <= value im x y z).
  { intros ((x & y) & z) Hp. apply grid_In in Hp. destruct (LoopFacts.pixel_exists im x y z W Hp) as (v & Hv). rewrite (value_pixel_is _ _ _ _ _ Hv). apply (H x y z v Hv). }
  induction (grid (sz im)) as [|((x & y) & z) l IH]; [cbn; lra|]. specialize (IH (fun p Hp => G p (or_intror Hp))). assert (G1 : 0 <= value im x y z) by exact (G (x, y, z) (or_introl eq_refl)). rewrite Zle_Qle in G1. unfold qsum in *. cbn [map fold_right].
  set (v := inject_Z (value im x y z)) in *. set (u := (a * (inject_Z (f x y z) - cf) + b * (inject_Z (g x y z) - cg) + c * (inject_Z (h x y z) - ch))%Q).
  assert (S : (0 <= v * (u * u))%Q).
  { apply Qmult_le_0_compat; [exact G1|]. apply square_nonneg. }
  eapply Qle_trans; [apply (Qplus_le_compat _ _ _ _ S IH)|]. apply Qle_lteq. right. unfold u. ring.
Qed.

(** ** Covariance *)
Lemma filter_flat_map {A B} p (g : A -> list B) l : filter p (flat_map g l) = flat_map (fun a => filter p (g a)) l.
Proof. induction l as [|a l IH]; [reflexivity|]. cbn. rewrite filter_app, IH. reflexivity. Qed.
Lemma filter_map {A B} p (g : A -> B) l : filter p (map g l) = map g (filter (fun a => p (g a)) l).
Proof. induction l as [|a l IH]; [reflexivity|]. cbn. rewrite IH. destruct (p (g a)); reflexivity. Qed.
Lemma flat_map_none {A B} (l : list A) : flat_map (fun _ => @nil B) l = [].
Proof. induction l; [reflexivity|assumption]. Qed.

Lemma zseq_nil n : n <= 0 -> zseq n = [].
Proof. intros H. unfold zseq. replace (Z.to_nat n) with 0%nat by lia. reflexivity. Qed.
Lemma filter_all_in {A} (p : A -> bool) l : (forall a, In a l -> p a = true) -> filter p l = l.
Proof. induction l as [|a l IH]; intros H; [reflexivity|]. cbn. rewrite H by (left; reflexivity). rewrite IH; [reflexivity|]. intros b Hb. apply H. right. exact Hb. Qed.

Lemma filter_shift h w : 0 <= h -> filter (fun x => x + h <? w) (zseq w) = zseq (w - h).
Proof.
  intros H. destruct (Z_le_gt_dec w 0) as [E|E]; [rewrite !zseq_nil by lia; reflexivity|]. destruct (Z_le_gt_dec w h) as [G|G].
  - rewrite (zseq_nil (w - h)) by lia. rewrite (filter_ext_in _ (fun _ => false)); [induction (zseq w); [reflexivity|assumption]|]. intros x Hx. apply zseq_In in Hx. lia.
  - rewrite <- (Z2Nat.id h H). assert (Hn : Z.of_nat (Z.to_nat h) < w) by lia. clear - Hn. induction (Z.to_nat h) as [|n IH]; [rewrite Z.sub_0_r; apply filter_all_in; intros x Hx; apply zseq_In in Hx; lia|].
    assert (Hn' : Z.of_nat n < w) by lia. specialize (IH Hn'). replace (w - Z.of_nat n) with (w - Z.of_nat (S n) + 1) in IH by lia. rewrite zseq_succ in IH by lia.
    rewrite (filter_ext _ (fun x => (x + Z.of_nat n <? w) && (x <? w - Z.of_nat (S n)))) by (intros x; lia).
    assert (E : forall (p q : Z -> bool) l, filter (fun x => p x && q x) l = filter q (filter p l)).
    { intros p q l. induction l as [|a l IHl]; [reflexivity|]. cbn. destruct (p a); cbn; destruct (q a); rewrite IHl; reflexivity. }
    rewrite E, IH, filter_app. cbn [filter]. replace (w - Z.of_nat (S n) <? w - Z.of_nat (S n)) with false by lia. rewrite app_nil_r. apply filter_all_in. intros x Hx. apply zseq_In in Hx. lia.
Qed.

Lemma kept_eq s hx hy hz : 0 <= hx -> 0 <= hy -> 0 <= hz ->
  kept s hx hy hz = flat_map (fun z => flat_map (fun y => map (fun x => (x, y, z)) (zseq (dw s - hx))) (zseq (dh s - hy))) (zseq (dd s - hz)).
Proof.
  intros Hx Hy Hz. unfold kept, grid. rewrite filter_flat_map.
  assert (F : forall A B (p : A -> bool) (g : A -> list B) l, flat_map (fun a => if p a then g a else []) l = flat_map g (filter p l)).
  { intros A B p g l. induction l as [|a l IH]; [reflexivity|]. cbn. rewrite IH. destruct (p a); reflexivity. }
  rewrite <- (filter_shift hz), <- F by assumption. apply flat_map_ext_in. intros z _. rewrite filter_flat_map.
  destruct (z + hz <? dd s) eqn:Ez.
  - rewrite <- (filter_shift hy), <- F by assumption. apply flat_map_ext_in. intros y _. rewrite filter_map. destruct (y + hy <? dh s) eqn:Ey.
    + rewrite <- (filter_shift hx) by assumption. f_equal. apply filter_ext. intros x. cbn beta iota. try rewrite Ez. try rewrite Ey. rewrite ?andb_true_r. reflexivity.
    + rewrite (filter_ext _ (fun _ => false)) by (intros x; cbn beta iota; try rewrite Ey; rewrite ?andb_false_r; reflexivity). induction (zseq (dw s)); [reflexivity|assumption].
  - rewrite (flat_map_ext_in _ (fun _ => [])); [apply flat_map_none|]. intros y _. rewrite filter_map. rewrite (filter_ext _ (fun _ => false)) by (intros x; cbn beta iota; try rewrite Ez; rewrite ?andb_false_r; reflexivity). induction (zseq (dw s)); [reflexivity|assumption].
Qed.
Lemma flat_map_len {A B} (g : A -> list B) n l : (forall a, In a l -> length (g a) = n) -> length (flat_map g l) = (length l * n)%nat.
Proof. induction l as [|a l IH]; intros H; [reflexivity|]. cbn. rewrite app_length, IH by (intros b Hb; apply H; right; exact Hb). rewrite H by (left; reflexivity). reflexivity. Qed.
Lemma kept_length s hx hy hz : 0 <= hx <= dw s -> 0 <= hy <= dh s -> 0 <= hz <= dd s -> Z.of_nat (length (kept s hx hy hz)) = (dw s - hx) * (dh s - hy) * (dd s - hz).
Proof.
  intros Hx Hy Hz. rewrite kept_eq by lia. rewrite (flat_map_len _ (Z.to_nat (dh s - hy) * Z.to_nat (dw s - hx))%nat).
  - rewrite zseq_length, !Nat2Z.inj_mul, !Z2Nat.id by lia. ring.
  - intros z _. rewrite (flat_map_len _ (Z.to_nat (dw s - hx))); [rewrite zseq_length; reflexivity|]. intros y _. rewrite map_length. apply zseq_length.
Qed.
Lemma kept_In s hx hy hz x y z : 0 <= hx -> 0 <= hy -> 0 <= hz -> In (x, y, z) (kept s hx hy hz) <-> inside s x y z /\ inside s (x + hx) (y + hy) (z + hz).
Proof. intros Hx Hy Hz. unfold kept. rewrite filter_In, grid_In. unfold inside. lia. Qed.

Lemma fold_dacc {A} (f : Z -> A -> option Z) (g : A -> Z) l : (forall s a, In a l -> f s a = dacc s (g a)) -> forall s, Z.abs s + Zsum (map (fun a => Z.abs (g a)) l) <= 2 ^ 53 ->
  fold_opt f l s = Some (s + Zsum (map g l)).
Proof.
  induction l as [|a l IH]; intros H s B; [cbn; f_equal; lia|]. cbn [fold_opt map]. cbn [map] in B. rewrite Zsum_cons in *. rewrite H by (left; reflexivity).
  assert (N : 0 <= Zsum (map (fun a => Z.abs (g a)) l)) by (apply Zsum_nonneg; apply Forall_forall; intros v Hv; apply in_map_iff in Hv as (b & <- & _); lia).
  rewrite dacc_ok by lia. rewrite IH; [f_equal; lia| |lia]. intros s' b Hb. apply H. right. exact Hb.
Qed.

Lemma px_product_ok t a b : product_fits t (a * b) -> px_product t a b = Some (a * b).
Proof. unfold product_fits, px_product. intros H. destruct t; try (rewrite Z.mod_small by lia; reflexivity); replace (_ && _) with true by lia; reflexivity. Qed.

Lemma cov_sum_ok t im1 im2 hx hy hz : wf_img im1 -> wf_img im2 -> sz im2 = sz im1 -> 0 <= hx -> 0 <= hy -> 0 <= hz -> cov_exact t im1 im2 hx hy hz ->
  cov_sum t im1 im2 hx hy hz = Some (Zsum (map (cov_product im1 im2 hx hy hz) (kept (sz im1) hx hy hz))).
Proof.
  intros W1 W2 S Hx Hy Hz (F & B).
  set (f := fun (s : Z) (p : Z * Z * Z) => let '(x, y, z) := p in
      option_bind (option_bind (slice_access (sz im1) x y z) (rd (pixs im1))) (fun a =>
      option_bind (option_bind (slice_access (sz im2) (x + hx) (y + hy) (z + hz)) (rd (pixs im2))) (fun b =>
      option_bind (px_product t a b) (dacc s)))).
  transitivity (fold_opt f (kept (sz im1) hx hy hz) 0).
  - rewrite kept_eq by assumption. unfold cov_sum. rewrite fold_opt_flat_map. apply ImageFacts.fold_opt_ext. intros s z _. rewrite fold_opt_flat_map. apply ImageFacts.fold_opt_ext. intros s' y _. rewrite ImageFacts.fold_opt_map. apply ImageFacts.fold_opt_ext. intros s'' x _. reflexivity.
  - rewrite (fold_dacc f (cov_product im1 im2 hx hy hz)); [f_equal| |cbn [Z.abs]; lia]. intros s ((x & y) & z) Hp. apply kept_In in Hp as (I1 & I2); try assumption. cbn [f]. unfold f.
    rewrite slice_access_wf by (try apply W1; exact I1). pose proof I2 as I2'. rewrite <- S in I2'. rewrite slice_access_wf by (try apply W2; exact I2'). cbn [option_bind].
    destruct (LoopFacts.pixel_exists im1 x y z W1 I1) as (u & Hu). destruct (LoopFacts.pixel_exists im2 _ _ _ W2 I2') as (v & Hv). rewrite (proj2 Hu), (proj2 Hv). cbn [option_bind]. rewrite (px_product_ok t u v (F x y z u v Hu Hv)). cbn [option_bind cov_product]. rewrite (value_pixel_is _ _ _ _ _ Hu), (value_pixel_is _ _ _ _ _ Hv). reflexivity.
Qed.

Lemma cov_max_range s dx dy dz : 0 < dw s -> 0 < dh s -> 0 < dd s -> 0 <= dx -> 0 <= dy -> 0 <= dz -> let m := cov_max s dx dy dz in
  0 <= m /\ (0 < dx -> m <= dw s - 1) /\ (0 < dy -> m <= dh s - 1) /\ (0 < dz -> m <= dd s - 1).
Proof. intros. subst m. unfold cov_max. destruct (dx >? 0) eqn:Ex, (dy >? 0) eqn:Ey, (dz >? 0) eqn:Ez; cbv zeta; match goal with |- context [?a >? 0] => destruct (a >? 0) eqn:Em end; lia. Qed.

Definition steps_of (s : dims) (dx dy dz maxSteps : Z) : Z := let m := cov_max s dx dy dz in Z.min (if maxSteps =? 0 then m else maxSteps) m.

Theorem covariance_ok t im1 im2 dx dy dz maxSteps nrm : wf_img im1 -> wf_img im2 -> sz im2 = sz im1 -> 0 < dw (sz im1) <= 2 ^ 32 -> 0 < dh (sz im1) <= 2 ^ 32 -> 0 < dd (sz im1) <= 2 ^ 32 ->
  0 <= dx <= 1 -> 0 <= dy <= 1 -> 0 <= dz <= 1 -> 0 < dx + dy + dz -> 0 <= maxSteps ->
  let n := steps_of (sz im1) dx dy dz maxSteps in 0 < n -> (forall k, 0 <= k <= n -> cov_exact t im1 im2 (dx * k) (dy * k) (dz * k)) ->
  let c k := covar im1 im2 (dx * k) (dy * k) (dz * k) in
  genericCovariance t im1 im2 dx dy dz maxSteps nrm =
  Some (map (fun k => if nrm then (if Qeq_bool (c 0) 0%Q then None else Some (Qdiv (c k) (c 0))) else Some (c k)) (zseq (n + 1))).
Proof.
  intros W1 W2 S D1 D2 D3 X Y Z0 P M n Hn B c. unfold genericCovariance. rewrite S, !Z.eqb_refl. cbn [andb negb]. rewrite Z.mod_small by lia. replace (dx + dy + dz =? 0) with false by lia.
  change (Z.min (if maxSteps =? 0 then cov_max (sz im1) dx dy dz else maxSteps) (cov_max (sz im1) dx dy dz)) with n. replace (n =? 0) with false by lia.
  destruct (cov_max_range (sz im1) dx dy dz) as (R0 & Rx & Ry & Rz); try lia. assert (Rn : n <= cov_max (sz im1) dx dy dz) by (unfold n, steps_of; lia). set (mx := cov_max (sz im1) dx dy dz) in *.
  rewrite (all_some_map _ c).
  - cbn [option_bind]. f_equal. rewrite map_map. apply map_ext. intros k. assert (E0 : znth 0%Q (map c (zseq (n + 1))) 0 = c 0).
    { apply znth_rd. rewrite rd_map, rd_zseq by lia. reflexivity. }
    rewrite E0. reflexivity.
  - intros k Hk. apply zseq_In in Hk. assert (Kx : 0 <= dx * k <= dw (sz im1) - 1) by nia. assert (Ky : 0 <= dy * k <= dh (sz im1) - 1) by nia. assert (Kz : 0 <= dz * k <= dd (sz im1) - 1) by nia.
    rewrite !Z.mod_small by lia. rewrite !Z.min_l by lia. rewrite cov_sum_ok; try assumption; try lia; [|apply B; lia]. cbn [option_map]. f_equal. unfold c, covar. rewrite kept_length by lia.
    assert (Pn : 0 < (dw (sz im1) - dx * k) * (dh (sz im1) - dy * k) * (dd (sz im1) - dz * k)) by (apply Z.mul_pos_pos; [apply Z.mul_pos_pos|]; lia).
    replace (_ =? 0) with false by (symmetry; apply Z.eqb_neq; lia). reflexivity.
Qed.

Lemma cov_max_ge s dx dy dz n : 0 <= dx -> 0 <= dy -> 0 <= dz -> 0 < dx + dy + dz -> 0 < n -> (0 < dx -> n < dw s) -> (0 < dy -> n < dh s) -> (0 < dz -> n < dd s) -> n <= cov_max s dx dy dz.
Proof.
  intros X Y Z0 P N Nx Ny Nz. unfold cov_max. cbv zeta. set (m := Z.max (Z.max (dw s) (dh s)) (dd s)).
  assert (M1 : dw s <= m /\ dh s <= m /\ dd s <= m) by (unfold m; lia). clearbody m.
  destruct (dx >? 0) eqn:Ex; (destruct (dy >? 0) eqn:Ey; (destruct (dz >? 0) eqn:Ez; [| try lia])); match goal with |- _ <= (if ?a >? 0 then _ else _) => assert (n + 1 <= a) by lia; destruct (a >? 0) eqn:Em; lia end.
Qed.
Lemma steps_value s dx dy dz maxSteps n : 0 < dw s -> 0 < dh s -> 0 < dd s -> 0 <= dx <= 1 -> 0 <= dy <= 1 -> 0 <= dz <= 1 -> 0 < dx + dy + dz -> 0 < n ->
  (dx = 1 -> n < dw s) -> (dy = 1 -> n < dh s) -> (dz = 1 -> n < dd s) ->
  (maxSteps = n \/ ((maxSteps = 0 \/ n < maxSteps) /\ ((dx = 1 /\ n + 1 = dw s) \/ (dy = 1 /\ n + 1 = dh s) \/ (dz = 1 /\ n + 1 = dd s)))) ->
  steps_of s dx dy dz maxSteps = n.
Proof.
  intros Hw Hh Hd X Y Z0 P N Nx Ny Nz H. unfold steps_of. destruct (cov_max_range s dx dy dz) as (R0 & Rx & Ry & Rz); try lia. pose proof (cov_max_ge s dx dy dz n) as G. set (m := cov_max s dx dy dz) in *. clearbody m. cbv zeta.
  assert (G' : n <= m) by (apply G; intros; try lia; first [apply Nx; lia|apply Ny; lia|apply Nz; lia]). clear G Nx Ny Nz. destruct (maxSteps =? 0) eqn:E0; destruct H as [H|(H1 & [H2|[H2|H2]])]; lia.
Qed.
