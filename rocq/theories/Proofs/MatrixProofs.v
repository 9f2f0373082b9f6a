(** Proofs about products of matrices. *)
From Coq Require Import String Ascii.
From Verif Require Export Proofs.MomentsProofs2 Proofs.TransformProofs3 Proofs.LoopFacts Spec.MatrixSpec.
From Verif Require Import Proofs.TransformProofs5.
Local Open Scope Z_scope.

(** ** Arithmetic modulo the cardinal of the type *)
Lemma wrap_shift t z k : wrap t (z + k * 2 ^ nbits t) = wrap t z.
Proof.
  unfold wrap. destruct (is_signed t); [f_equal; replace (z + k * 2 ^ nbits t + 2 ^ (nbits t - 1)) with (z + 2 ^ (nbits t - 1) + k * 2 ^ nbits t) by ring|]; apply Z_mod_plus_full.
Qed.
Lemma wrap_add t a b : wrap t (wrap t a + b) = wrap t (a + b).
Proof. destruct (wrap_mod t a) as (k & ->). replace (a + k * 2 ^ nbits t + b) with (a + b + k * 2 ^ nbits t) by ring. apply wrap_shift. Qed.
Lemma wrap_mul t a b : wrap t (wrap t a * b) = wrap t (a * b).
Proof. destruct (wrap_mod t a) as (k & ->). replace ((a + k * 2 ^ nbits t) * b) with (a * b + k * b * 2 ^ nbits t) by ring. apply wrap_shift. Qed.
Lemma wrap_sum {A} t (f g : A -> Z) l : (forall a, In a l -> wrap t (f a) = wrap t (g a)) -> wrap t (Zsum (map f l)) = wrap t (Zsum (map g l)).
Proof.
  induction l as [|a l IH]; intros H; [reflexivity|]. cbn [map]. rewrite !Zsum_cons. rewrite <- wrap_add, (H a (or_introl eq_refl)), wrap_add. rewrite (Z.add_comm (g a)), <- wrap_add, IH, wrap_add by (intros b Hb; apply H; right; exact Hb). f_equal. ring.
Qed.
Lemma wrap_wrap t a : wrap t (wrap t a) = wrap t a.
Proof. apply wrap_id, wrap_range. Qed.

(** ** Sums *)
Lemma Zsum_scale {A} (f : A -> Z) c l : Zsum (map (fun a => f a * c) l) = Zsum (map f l) * c.
Proof. induction l as [|a l IH]; [reflexivity|]. cbn [map]. rewrite !Zsum_cons, IH. ring. Qed.
Lemma Zsum_add {A} (f g : A -> Z) l : Zsum (map (fun a => f a + g a) l) = Zsum (map f l) + Zsum (map g l).
Proof. induction l as [|a l IH]; [reflexivity|]. cbn [map]. rewrite !Zsum_cons, IH. ring. Qed.
Lemma Zsum_zero {A} (l : list A) : Zsum (map (fun _ => 0) l) = 0.
Proof. induction l as [|a l IH]; [reflexivity|]. cbn [map]. rewrite Zsum_cons, IH. reflexivity. Qed.
Lemma Zsum_swap {A B} (f : A -> B -> Z) la lb : Zsum (map (fun a => Zsum (map (f a) lb)) la) = Zsum (map (fun b => Zsum (map (fun a => f a b) la)) lb).
Proof.
  induction la as [|a la IH]; [cbn [map]; symmetry; apply Zsum_zero|]. cbn [map]. rewrite Zsum_cons, IH, <- Zsum_add. f_equal.
Qed.
Lemma Zsum_delta (f : Z -> Z) n k : 0 <= k < n -> Zsum (map (fun i => if i =? k then f i else 0) (zseq n)) = f k.
Proof.
  intros H. replace n with (Z.of_nat (Z.to_nat n)) in * by lia. induction (Z.to_nat n) as [|m IH]; [lia|]. rewrite Nat2Z.inj_succ, <- Z.add_1_r, zseq_succ by lia. rewrite map_app, Zsum_app. cbn [map]. rewrite Zsum_cons. change (Zsum []) with 0.
  destruct (Z.eq_dec k (Z.of_nat m)) as [->|N].
  - rewrite Z.eqb_refl. rewrite (map_ext_in _ (fun _ => 0)); [rewrite Zsum_zero; lia|]. intros i Hi. apply zseq_In in Hi. replace (i =? Z.of_nat m) with false by lia. reflexivity.
  - rewrite IH by lia. replace (Z.of_nat m =? k) with false by lia. lia.
Qed.

(** ** The loops *)
Lemma mac_ok t acc a b : inty t acc -> inty t a -> inty t b -> (t = UINT16 -> a * b <= 2 ^ 31 - 2 ^ 16) -> mac t acc a b = Some (wrap t (acc + a * b)).
Proof.
  intros Hs Ha Hb Ho. unfold mac, px_product, inty in *. destruct t; cbn in Hs, Ha, Hb; try specialize (Ho eq_refl).
  3: { cbn [option_bind]. unfold wrap. cbn [is_signed nbits]. rewrite Zplus_mod_idemp_r. reflexivity. }
  all: replace ((- 2 ^ 31 <=? a * b) && (a * b <? 2 ^ 31)) with true by nia; cbn [option_bind]; replace ((- 2 ^ 31 <=? acc + a * b) && (acc + a * b <? 2 ^ 31)) with true by nia; reflexivity.
Qed.

Lemma typed_pixel t im x y z v : typed_img t im -> pixel_is im x y z v -> inty t v.
Proof. intros H (_ & Hv). unfold typed_img in H. rewrite Forall_forall in H. apply H. apply (rd_In _ _ _ Hv). Qed.

Section Product.
  Variables (t : ity) (im1 im2 tr : img).
  Hypothesis C : composable im1 im2.
  Hypothesis T1 : typed_img t im1.
  Hypothesis T2 : typed_img t im2.
  Hypothesis O : t = UINT16 -> forall u v, In u (pixs im1) -> In v (pixs im2) -> u * v <= 2 ^ 31 - 2 ^ 16.
  Hypothesis Wt : wf_img tr.
  Hypothesis St : sz tr = Dims (dh (sz im2)) (dw (sz im2)) 1.
  Hypothesis Vt : forall x y v, inside (sz im2) x y 0 -> (pixel_is tr y x 0 v <-> pixel_is im2 x y 0 v).

  Lemma dot_ok x y : 0 <= x < dw (sz im2) -> 0 <= y < dh (sz im1) -> dot t im1 tr (dw (sz im1)) x y = Some (wrap t (entry im1 im2 x y)).
  Proof.
    destruct C as (W1 & W2 & D1 & D2 & E). intros Hx Hy. unfold dot, entry.
    assert (G : forall l acc, (forall i, In i l -> 0 <= i < dw (sz im1)) ->
      fold_opt (fun acc i =>
        option_bind (option_bind (slice_access (sz im1) i y 0) (rd (pixs im1))) (fun a =>
        option_bind (option_bind (slice_access (sz tr) i x 0) (rd (pixs tr))) (fun b => mac t acc a b))) l (wrap t acc) =
      Some (wrap t (acc + Zsum (map (fun i => value im1 i y 0 * value im2 x i 0) l)))).
    { induction l as [|i l IH]; intros acc H; [cbn [fold_opt map]; change (Zsum []) with 0; rewrite Z.add_0_r; reflexivity|]. cbn [fold_opt map]. rewrite Zsum_cons.
      pose proof (H i (or_introl eq_refl)) as Hi. assert (I1 : inside (sz im1) i y 0) by (unfold inside; lia). assert (I2 : inside (sz im2) x i 0) by (unfold inside; lia). assert (I3 : inside (sz tr) i x 0) by (rewrite St; unfold inside; cbn; lia).
      rewrite (slice_access_wf (sz im1)) by (try apply W1; exact I1). rewrite (slice_access_wf (sz tr)) by (try apply Wt; exact I3). cbn [option_bind].
      destruct (pixel_exists im1 i y 0 W1 I1) as (u & Hu). destruct (pixel_exists im2 x i 0 W2 I2) as (v & Hv). pose proof (proj2 (Vt x i v I2) Hv) as Hv'. rewrite (proj2 Hu), (proj2 Hv'). cbn [option_bind].
      rewrite mac_ok; [|apply wrap_range|apply (typed_pixel t im1 _ _ _ _ T1 Hu)|apply (typed_pixel t im2 _ _ _ _ T2 Hv)|intros Et; apply (O Et); [apply (rd_In _ _ _ (proj2 Hu))|apply (rd_In _ _ _ (proj2 Hv))]].
      rewrite wrap_add. rewrite IH by (intros j Hj; apply H; right; exact Hj). rewrite (value_pixel_is _ _ _ _ _ Hu), (value_pixel_is _ _ _ _ _ Hv). do 2 f_equal. ring. }
    specialize (G (zseq (dw (sz im1))) 0). rewrite (wrap_id t 0 (inty_0 t)) in G. rewrite G by (intros i Hi; apply zseq_In in Hi; exact Hi). reflexivity.
  Qed.
End Product.

Lemma small_swap s : small s -> dd s = 1 -> wf_dims (Dims (dh s) (dw s) 1).
Proof. intros (A & B & _) _. repeat split; cbn; lia. Qed.

Theorem multiply_ok t junk sched sched' im1 im2 imOut : legal_sched sched -> legal_sched sched' -> composable im1 im2 -> wf_img imOut -> small (sz im2) ->
  typed_img t im1 -> typed_img t im2 -> (t = UINT16 -> forall u v, In u (pixs im1) -> In v (pixs im2) -> u * v <= 2 ^ 31 - 2 ^ 16) ->
  exists out, matMultiply t junk sched sched' im1 im2 imOut = Some (1, out) /\ product_of t im1 im2 out.
Proof.
  intros L L' C Wo Sm T1 T2 O. pose proof C as (W1 & W2 & D1 & D2 & E). unfold matMultiply. unfold depth, width, height. rewrite D1, D2, E, !Z.eqb_refl. cbn [negb orb].
  set (nw := Img _ (map junk _)). assert (Wn : wf_img nw).
  { split; [apply small_swap; assumption|]. unfold nw. cbn [sz pixs]. rewrite map_length, zseq_length, pixelCount_dims. destruct W2 as ((? & ? & ?) & _). cbn [dw dh dd]. rewrite Z2Nat.id; [reflexivity|]. nia. }
  destruct (transpose_ok junk sched im2 nw "yxz" "y"%char "x"%char "z"%char L W2 Wn Sm) as (tr & Et & Wt & St & Vt); [split; [reflexivity|cbn; tauto]|]. rewrite Et. cbn [option_bind fst snd]. rewrite Z.eqb_refl. cbn [negb].
  cbn [axis] in St, Vt. unfold axis in St, Vt. cbn in St, Vt. rewrite D2 in St.
  destruct (setSize_wf junk imOut (Dims (dw (sz im2)) (dh (sz im1)) 1) Wo) as (Wz & Sz); [repeat split; cbn; [apply W2|apply W1|lia]|]. set (out := setSize _ _ _) in *.
  assert (DOT : forall x y, 0 <= x < dw (sz im2) -> 0 <= y < dh (sz im1) -> dot t im1 tr (dh (sz im2)) x y = Some (wrap t (entry im1 im2 x y))).
  { intros x y Hx Hy. rewrite <- E. apply dot_ok; try assumption. intros a b v Hi. apply Vt. exact Hi. }
  assert (Hgrid : forall x y z, In (x, y, z) (sched' (Loops.grid (dw (sz im2)) (dh (sz im1)) 1)) <-> 0 <= x < dw (sz im2) /\ 0 <= y < dh (sz im1) /\ z = 0).
  { intros x y z. rewrite (L' _ (x, y, z)), LoopFacts.grid_In. lia. }
  assert (Hw : wf_img (Img (sz out) (pixs out))) by (destruct out; exact Wz).
  destruct (scatter_voxels (fun '(x, y, _) => option_bind (slice_access (sz out) x y 0) (fun a => option_map (fun v => (a, v)) (dot t im1 tr (dh (sz im2)) x y))) (fun c => c) (fun '(x, y, _) => wrap t (entry im1 im2 x y)) (sched' (Loops.grid (dw (sz im2)) (dh (sz im1)) 1)) (sz out) (pixs out) Hw) as (px & Es & Wp & Hp & _).
  - intros ((x & y) & z) Hc. apply Hgrid in Hc as (Hx & Hy & ->). assert (I : inside (sz out) x y 0) by (rewrite Sz; unfold inside; cbn; lia). split; [exact I|]. rewrite slice_access_wf by (try apply Wz; exact I). cbn [option_bind]. rewrite DOT by assumption. reflexivity.
  - intros c c' _ _ ->. reflexivity.
  - rewrite Es. cbn [option_bind]. eexists. split; [reflexivity|]. split; [exact Wp|]. split; [exact Sz|]. intros x y Hx Hy. apply (Hp (x, y, 0)). apply Hgrid. lia.
Qed.

(** ** Algebra *)
Lemma product_value t a b o x y : product_of t a b o -> 0 <= x < dw (sz b) -> 0 <= y < dh (sz a) -> value o x y 0 = wrap t (entry a b x y).
Proof. intros (_ & _ & H) Hx Hy. apply value_pixel_is. apply H; assumption. Qed.

Lemma product_assoc t a b c ab bc l r : composable a b -> composable b c -> product_of t a b ab -> product_of t b c bc -> product_of t ab c l -> product_of t a bc r -> l = r.
Proof.
  intros (W1 & W2 & _ & _ & E1) (_ & W3 & _ & _ & E2) Pab Pbc Pl Pr. pose proof Pl as (Wl & Sl & Vl). pose proof Pr as (Wr & Sr & Vr). pose proof Pab as (_ & Sab & _). pose proof Pbc as (_ & Sbc & _). rewrite Sab in Sl. rewrite Sbc in Sr. cbn in Sl, Sr.
  apply img_ext; try assumption; [congruence|]. intros x y z v Hv. pose proof (proj1 Hv) as I. rewrite Sl in I. unfold inside in I. cbn in I. assert (z = 0) by lia. subst z.
  assert (Hx : 0 <= x < dw (sz c)) by lia. assert (Hy : 0 <= y < dh (sz a)) by lia.
  replace v with (wrap t (entry a bc x y)); [apply Vr; rewrite ?Sbc; cbn; lia|].
  assert (Vl' : pixel_is l x y 0 (wrap t (entry ab c x y))) by (apply Vl; [exact Hx|rewrite Sab; cbn; exact Hy]). rewrite (pixel_is_fun _ _ _ _ _ _ Hv Vl').
  assert (Ll : wrap t (entry ab c x y) = wrap t (Zsum (map (fun i => Zsum (map (fun j => value a j y 0 * value b i j 0) (zseq (dw (sz a)))) * value c x i 0) (zseq (dw (sz b)))))).
  { unfold entry. rewrite Sab. cbn [dw]. apply wrap_sum. intros i Hi. apply zseq_In in Hi. rewrite (product_value t a b ab) by assumption. rewrite wrap_mul. reflexivity. }
  assert (Lr : wrap t (entry a bc x y) = wrap t (Zsum (map (fun j => value a j y 0 * Zsum (map (fun i => value b i j 0 * value c x i 0) (zseq (dw (sz b))))) (zseq (dw (sz a)))))).
  { unfold entry. apply wrap_sum. intros j Hj. apply zseq_In in Hj. rewrite (product_value t b c bc) by (try assumption; lia). rewrite Z.mul_comm, wrap_mul, Z.mul_comm. reflexivity. }
  rewrite Ll, Lr. f_equal. transitivity (Zsum (map (fun i => Zsum (map (fun j => value a j y 0 * value b i j 0 * value c x i 0) (zseq (dw (sz a))))) (zseq (dw (sz b))))).
  - rewrite (Zsum_swap (fun i j => value a j y 0 * value b i j 0 * value c x i 0)). f_equal. apply map_ext. intros j. rewrite <- (Z.mul_comm (Zsum _)), <- Zsum_scale. f_equal. apply map_ext. intros i. ring.
  - f_equal. apply map_ext. intros i. rewrite <- Zsum_scale. reflexivity.
Qed.

Lemma transposed_value im tr x y : transposed "y"%char "x"%char "z"%char im tr -> wf_img im -> dd (sz im) = 1 -> 0 <= x < dw (sz im) -> 0 <= y < dh (sz im) -> value tr y x 0 = value im x y 0.
Proof.
  intros (Wt & St & Vt) W D Hx Hy. unfold axis in St, Vt. cbn in St, Vt. assert (I : inside (sz im) x y 0) by (unfold inside; lia). destruct (pixel_exists im x y 0 W I) as (v & Hv). pose proof (proj2 (Vt x y 0 v I) Hv) as Hv'. rewrite (value_pixel_is _ _ _ _ _ Hv), (value_pixel_is _ _ _ _ _ Hv'). reflexivity.
Qed.
Lemma transposed_dims im tr : transposed "y"%char "x"%char "z"%char im tr -> sz tr = Dims (dh (sz im)) (dw (sz im)) (dd (sz im)).
Proof. intros (_ & St & _). exact St. Qed.

Lemma product_transpose t a b ab abT aT bT l : composable a b -> product_of t a b ab -> transposed "y"%char "x"%char "z"%char ab abT ->
  transposed "y"%char "x"%char "z"%char a aT -> transposed "y"%char "x"%char "z"%char b bT -> product_of t bT aT l -> l = abT.
Proof.
  intros (W1 & W2 & D1 & D2 & E) Pab Tab Ta Tb Pl. pose proof Pl as (Wl & Sl & Vl). pose proof Pab as (Wab & Sab & _). pose proof (transposed_dims _ _ Ta) as Sa. pose proof (transposed_dims _ _ Tb) as Sb. pose proof (transposed_dims _ _ Tab) as Sabt. rewrite Sa, Sb in Sl. rewrite Sab in Sabt. cbn in Sl, Sabt.
  apply img_ext; try assumption; [apply Tab|congruence|]. intros x y z v Hv. pose proof (proj1 Hv) as I. rewrite Sl in I. unfold inside in I. cbn in I. assert (z = 0) by lia. subst z.
  assert (Vl' : pixel_is l x y 0 (wrap t (entry bT aT x y))) by (apply Vl; [rewrite Sa; cbn; lia|rewrite Sb; cbn; lia]). rewrite (pixel_is_fun _ _ _ _ _ _ Hv Vl').
  destruct (LoopFacts.pixel_exists abT x y 0) as (u & Hu); [apply Tab|rewrite Sabt; unfold inside; cbn; lia|]. replace (wrap t (entry bT aT x y)) with u; [exact Hu|].
  rewrite <- (value_pixel_is _ _ _ _ _ Hu). rewrite (transposed_value ab abT y x Tab Wab) by (rewrite Sab; cbn; lia). rewrite (product_value t a b ab) by (try assumption; lia). f_equal. unfold entry. rewrite Sb. cbn [dw]. rewrite E. f_equal. apply map_ext_in. intros i Hi. apply zseq_In in Hi.
  rewrite (transposed_value b bT y i Tb W2 D2) by lia. rewrite (transposed_value a aT i x Ta W1 D1) by lia. ring.
Qed.

Lemma product_identity t a i o : wf_img a -> dd (sz a) = 1 -> typed_img t a -> identity (dw (sz a)) i -> product_of t a i o -> o = a.
Proof.
  intros W D T (Wi & Si & Vi) (Wo & So & Vo). rewrite Si in So, Vo. cbn in So, Vo. apply img_ext; try assumption; [rewrite So; destruct (sz a); cbn in *; congruence|]. intros x y z v Hv. pose proof (proj1 Hv) as I. rewrite So in I. unfold inside in I. cbn in I. assert (z = 0) by lia. subst z.
  rewrite (pixel_is_fun _ _ _ _ _ _ Hv (Vo x y ltac:(lia) ltac:(lia))). destruct (pixel_exists a x y 0 W) as (u & Hu); [unfold inside; lia|]. replace (wrap t (entry a i x y)) with u; [exact Hu|].
  unfold entry. rewrite (map_ext_in _ (fun j => if j =? x then value a j y 0 else 0)); [rewrite (Zsum_delta (fun j => value a j y 0)) by lia; rewrite (value_pixel_is _ _ _ _ _ Hu); symmetry; apply wrap_id; apply (typed_pixel t a _ _ _ _ T Hu)|].
  intros j Hj. apply zseq_In in Hj. rewrite Vi by lia. rewrite (Z.eqb_sym x j). destruct (j =? x); ring.
Qed.
