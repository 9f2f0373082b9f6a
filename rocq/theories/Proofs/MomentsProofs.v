(** Proofs about means, barycentres and moments. *)
From Coq Require Import Lqa.
From Verif Require Export Proofs.MeasureProofs2 Spec.MomentsSpec.
From Coq Require Import QArith.
Local Open Scope Z_scope.

Lemma dacc_ok s p : Z.abs s + Z.abs p <= 2 ^ 53 -> dacc s p = Some (s + p).
Proof. intros H. unfold dacc, dadd. replace (Z.abs p <=? 2 ^ 53) with true by lia. replace (Z.abs (s + p) <=? 2 ^ 53) with true by lia. reflexivity. Qed.

Lemma rd_next {A} (a : A) l k : 0 <= k -> rd (a :: l) (k + 1) = rd l k.
Proof. intros H. unfold rd. replace (0 <=? k + 1) with true by lia. replace (0 <=? k) with true by lia. replace (Z.to_nat (k + 1)) with (S (Z.to_nat k)) by lia. reflexivity. Qed.

(** Accumulating vectors of terms: every component is a sum. *)
Lemma daccs_ok : forall s ps, length ps = length s -> (forall j a p, rd s j = Some a -> rd ps j = Some p -> Z.abs a + Z.abs p <= 2 ^ 53) ->
  daccs s ps = Some (map2 Z.add s ps).
Proof.
  unfold daccs. induction s as [|a s IH]; intros [|p ps] L H; try discriminate; [reflexivity|]. cbn [map2 all_some]. rewrite dacc_ok by (apply (H 0); reflexivity). cbn in L. 
  rewrite IH; [reflexivity|lia|]. intros j b q Hb Hq. apply (H (j + 1)).
  - pose proof (rd_Some_range _ _ _ Hb). rewrite rd_next by lia. exact Hb.
  - pose proof (rd_Some_range _ _ _ Hb). rewrite rd_next by lia. exact Hq.
Qed.

Definition abs_sum (T : Z -> list Z) (j : Z) (ks : list Z) : Z := Zsum (map (fun k => Z.abs (znth 0 (T k) j)) ks).
Definition term_sum (T : Z -> list Z) (j : Z) (ks : list Z) : Z := Zsum (map (fun k => znth 0 (T k) j) ks).
Lemma abs_sum_nonneg T j ks : 0 <= abs_sum T j ks.
Proof. apply Zsum_nonneg. apply Forall_forall. intros x Hx. apply in_map_iff in Hx as (k & <- & _). lia. Qed.

Lemma fold_terms (T : Z -> list Z) n : (forall k, Z.of_nat (length (T k)) = n) -> forall ks s, Z.of_nat (length s) = n ->
  (forall j a, rd s j = Some a -> Z.abs a + abs_sum T j ks <= 2 ^ 53) ->
  exists s', fold_opt (fun s k => daccs s (T k)) ks s = Some s' /\ Z.of_nat (length s') = n /\ forall j a, rd s j = Some a -> rd s' j = Some (a + term_sum T j ks).
Proof.
  intros LT. induction ks as [|k ks IH]; intros s L B; cbn [fold_opt].
  - exists s. split; [reflexivity|]. split; [exact L|]. intros j a H. rewrite H. f_equal. unfold term_sum. cbn. lia.
  - assert (B' : forall j a, rd s j = Some a -> Z.abs a + Z.abs (znth 0 (T k) j) + abs_sum T j ks <= 2 ^ 53). { intros j a H. specialize (B j a H). unfold abs_sum in *. cbn [map] in B. rewrite Zsum_cons in B. lia. }
    rewrite daccs_ok.
    + cbn [option_bind]. destruct (IH (map2 Z.add s (T k))) as (s' & E & L' & R').
      * rewrite map2_length. specialize (LT k). lia.
      * intros j a H. rewrite rd_map2 in H. destruct (rd s j) as [b|] eqn:Eb; [|discriminate]. destruct (rd (T k) j) as [p|] eqn:Ep; [|discriminate]. injection H as <-. specialize (B' j b Eb). rewrite (znth_rd 0 _ _ _ Ep) in B'. lia.
      * exists s'. split; [exact E|]. split; [exact L'|]. intros j a H. destruct (rd_in_range (T k) j) as (p & Ep); [apply rd_Some_range in H; rewrite LT; lia|]. rewrite (R' j (a + p)) by (rewrite rd_map2, H, Ep; reflexivity). f_equal. unfold term_sum. cbn [map]. rewrite Zsum_cons, (znth_rd 0 _ _ _ Ep). lia.
    + specialize (LT k). lia.
    + intros j a p Ha Hp. specialize (B' j a Ha). rewrite (znth_rd 0 _ _ _ Hp) in B'. pose proof (abs_sum_nonneg T j ks). lia.
Qed.

(** ** The mean *)
Lemma mean_raw b im : wf_img im -> Zsum (map (fun v => v * v) (considered b im)) <= 2 ^ 53 -> Zsum (map Z.abs (considered b im)) <= 2 ^ 53 -> Z.of_nat (length (considered b im)) <= 2 ^ 53 ->
  let l := considered b im in process_image (fun s l => fold_opt (fun s v => daccs s (mean_terms v)) l s) [0; 0; 0] b im = Some [Z.of_nat (length l); Zsum l; Zsum (map (fun v => v * v) l)].
Proof.
  intros W H2 H1 H0 l. rewrite (process_image_step _ (fun s k => daccs s (mean_terms (znth 0 (pixs im) k)))).
  2: exact W. 2: { intros s a n _ _ _ _ _. rewrite fold_opt_map. reflexivity. }
  assert (El : l = map (znth 0 (pixs im)) (sel b im)) by apply considered_sel. fold l in H0, H1, H2. replace (fold_opt _ (sel b im) [0; 0; 0]) with (fold_opt (fun s v => daccs s (mean_terms v)) l [0; 0; 0]) by (rewrite El, fold_opt_map; reflexivity).
  clearbody l. clear El.
  destruct (fold_terms mean_terms 3 (fun k => eq_refl) l [0; 0; 0] eq_refl) as (s' & E & L & R).
  - intros j a Hj. assert (Hr := rd_Some_range _ _ _ Hj). cbn in Hr. unfold abs_sum. assert (j = 0 \/ j = 1 \/ j = 2) as [-> | [-> | ->]] by lia; injection Hj as <-.
    + change (Z.abs 0 + Zsum (map (fun k => Z.abs 1) l) <= 2 ^ 53). replace (Zsum (map (fun _ => Z.abs 1) l)) with (Z.of_nat (length l)); [cbn; lia|]. clear. induction l as [|a l IH]; [reflexivity|]. cbn [map length]. rewrite Zsum_cons, <- IH. lia.
    + change (Z.abs 0 + Zsum (map Z.abs l) <= 2 ^ 53). cbn. lia.
    + change (Z.abs 0 + Zsum (map (fun k => Z.abs (k * k)) l) <= 2 ^ 53). rewrite (map_ext (fun k => Z.abs (k * k)) (fun k => k * k)) by (intros; nia). cbn. lia.
  - rewrite E. f_equal. apply list_ext_rd; [cbn in *; lia|]. intros j Hj. assert (j = 0 \/ j = 1 \/ j = 2) as [-> | [-> | ->]] by lia; [rewrite (R 0 0 eq_refl)|rewrite (R 1 0 eq_refl)|rewrite (R 2 0 eq_refl)]; unfold term_sum; rewrite Z.add_0_l; [| |reflexivity].
    + change (Some (Zsum (map (fun k => 1) l)) = Some (Z.of_nat (length l))). f_equal. clear. induction l as [|a l IH]; [reflexivity|]. cbn [map length]. rewrite Zsum_cons, IH. lia.
    + change (Some (Zsum (map (fun k => k) l)) = Some (Zsum l)). rewrite map_id. reflexivity.
Qed.

Lemma square_sum l m : (qsum (map (fun v => (inject_Z v - m) * (inject_Z v - m)) l) == inject_Z (Zsum (map (fun v => (v * v)%Z) l)) - 2 * m * inject_Z (Zsum l) + inject_Z (Z.of_nat (length l)) * (m * m))%Q.
Proof.
  induction l as [|a l IH]; [cbn; ring|]. cbn [map length]. unfold qsum in *. cbn [fold_right]. rewrite IH, !Zsum_cons, Nat2Z.inj_succ, !inject_Z_plus, inject_Z_mult. unfold Z.succ. rewrite inject_Z_plus. ring.
Qed.
Lemma qsum_nonneg l : (forall q, In q l -> (0 <= q)%Q) -> (0 <= qsum l)%Q.
Proof. induction l as [|a l IH]; intros H; [apply Qle_refl|]. unfold qsum in *. cbn [fold_right]. assert (0 <= a)%Q by (apply H; left; reflexivity). assert (0 <= fold_right Qplus 0 l)%Q by (apply IH; intros q Hq; apply H; right; exact Hq). lra. Qed.
Lemma inj_pos z : 0 < z -> (0 < inject_Z z)%Q.
Proof. intros H. change 0%Q with (inject_Z 0). rewrite <- Zlt_Qlt. exact H. Qed.
Lemma square_nonneg q : (0 <= q * q)%Q.
Proof. nra. Qed.

Theorem mean_ok b im : wf_img im -> considered b im <> [] -> Zsum (map (fun v => v * v) (considered b im)) <= 2 ^ 53 -> Zsum (map Z.abs (considered b im)) <= 2 ^ 53 -> Z.of_nat (length (considered b im)) <= 2 ^ 53 ->
  let l := considered b im in exists m r, meanVal b im = Some (m, r) /\ (m * inject_Z (Z.of_nat (length l)) == inject_Z (Zsum l))%Q /\
    (r * inject_Z (Z.of_nat (length l)) == qsum (map (fun v => (inject_Z v - m) * (inject_Z v - m)) l))%Q /\ (0 <= r)%Q /\ ((r == 0)%Q <-> forall u v, In u l -> In v l -> u = v).
Proof.
  intros W N H2 H1 H0 l. unfold meanVal. rewrite (mean_raw b im W H2 H1 H0). fold l. fold l in N. cbn [option_map]. change (znth 0 [Z.of_nat (length l); Zsum l; Zsum (map (fun v => v * v) l)] 0) with (Z.of_nat (length l)).
  change (znth 0 [Z.of_nat (length l); Zsum l; Zsum (map (fun v => v * v) l)] 1) with (Zsum l). change (znth 0 [Z.of_nat (length l); Zsum l; Zsum (map (fun v => v * v) l)] 2) with (Zsum (map (fun v => v * v) l)).
  assert (P : 0 < Z.of_nat (length l)) by (destruct l; [congruence|cbn; lia]). replace (Z.of_nat (length l) =? 0) with false by lia. apply inj_pos in P. set (n := inject_Z (Z.of_nat (length l))) in *.
  eexists. eexists. split; [reflexivity|]. set (m := (inject_Z (Zsum l) / n)%Q). assert (Em : (m * n == inject_Z (Zsum l))%Q) by (unfold m; field; lra). split; [exact Em|].
  set (r := (_ / n - m * m)%Q). assert (Er : (r * n == qsum (map (fun v => (inject_Z v - m) * (inject_Z v - m)) l))%Q). { rewrite square_sum. fold n. rewrite <- Em. unfold r. field. lra. }
  assert (Sn : (0 <= qsum (map (fun v => (inject_Z v - m) * (inject_Z v - m)) l))%Q) by (apply qsum_nonneg; intros q Hq; apply in_map_iff in Hq as (v & <- & _); apply square_nonneg).
  split; [exact Er|]. split; [destruct (Qlt_le_dec r 0) as [C|C]; [exfalso; nra|exact C]|]. split.
  - intros E0. rewrite E0 in Er. assert (Z0 : (qsum (map (fun v => (inject_Z v - m) * (inject_Z v - m)) l) == 0)%Q) by (rewrite <- Er; ring).
    assert (A : forall v, In v l -> (inject_Z v == m)%Q).
    { clear -Z0. clearbody m. induction l as [|a l IH]; intros v Hv; [destruct Hv|]. unfold qsum in *. cbn [map fold_right] in Z0. pose proof (square_nonneg (inject_Z a - m)) as S1. assert (S2 : (0 <= fold_right Qplus 0 (map (fun v => (inject_Z v - m) * (inject_Z v - m)) l))%Q) by (apply qsum_nonneg; intros q Hq; apply in_map_iff in Hq as (u & <- & _); apply square_nonneg).
      destruct Hv as [<-|Hv]; [|apply IH; [lra|exact Hv]]. assert (S3 : ((inject_Z a - m) * (inject_Z a - m) == 0)%Q) by lra. apply Qmult_integral in S3 as [S3|S3]; lra. }
    intros u v Hu Hv. pose proof (A u Hu) as A1. rewrite <- (A v Hv) in A1. unfold Qeq, inject_Z in A1. cbn in A1. lia.
  - intros C. assert (Z0 : (qsum (map (fun v => (inject_Z v - m) * (inject_Z v - m)) l) == 0)%Q).
    { destruct l as [|c l']; [congruence|]. assert (Cc : forall v, In v (c :: l') -> v = c) by (intros v Hv; apply C; [exact Hv|left; reflexivity]).
      assert (Mc : (m == inject_Z c)%Q). { assert (Sc : Zsum (c :: l') = c * Z.of_nat (length (c :: l'))). { clear -Cc. induction (c :: l') as [|a r IH]; [cbn; lia|]. cbn [length]. rewrite Zsum_cons, IH by (intros v Hv; apply Cc; right; exact Hv). rewrite (Cc a) by (left; reflexivity). lia. } unfold m. rewrite Sc, inject_Z_mult. fold n. field. lra. }
      clear -Cc Mc. clearbody m. induction (c :: l') as [|a r IH]; [reflexivity|]. unfold qsum in *. cbn [map fold_right]. rewrite IH by (intros v Hv; apply Cc; right; exact Hv). rewrite (Cc a) by (left; reflexivity). rewrite Mc. ring. }
    rewrite Z0 in Er. apply Qmult_integral in Er as [Er|Er]; lra.
Qed.

(** ** Sums over the positions *)
Lemma flat_map_ext_in {A B} (f g : A -> list B) l : (forall a, In a l -> f a = g a) -> flat_map f l = flat_map g l.
Proof. induction l as [|a l IH]; intros H; [reflexivity|]. cbn. rewrite (H a) by (left; reflexivity). f_equal. apply IH. intros b Hb. apply H. right. exact Hb. Qed.
Lemma map_flat_map {A B C} (f : B -> C) (g : A -> list B) l : map f (flat_map g l) = flat_map (fun a => map f (g a)) l.
Proof. induction l as [|a l IH]; [reflexivity|]. cbn. rewrite map_app, IH. reflexivity. Qed.
Lemma flat_map_map {A B C} (f : A -> B) (g : B -> list C) l : flat_map g (map f l) = flat_map (fun a => g (f a)) l.
Proof. induction l as [|a l IH]; [reflexivity|]. cbn. rewrite IH. reflexivity. Qed.

Lemma grid_zseq s : wf_dims s -> grid s = map (fun k => (kx s k, ky s k, kz s k)) (zseq (dw s * dh s * dd s)).
Proof.
  intros W. pose proof W as (W1 & W2 & W3). replace (dw s * dh s * dd s) with (dd s * dh s * dw s) by ring. rewrite zseq_mul by nia. rewrite map_flat_map, zseq_mul by lia.
  unfold grid. assert (E : forall (F : Z -> list (Z * Z * Z)) l, flat_map F (flat_map (fun z => zrange (z * dh s) (dh s)) l) = flat_map (fun z => flat_map F (zrange (z * dh s) (dh s))) l).
  { intros F l. induction l as [|a l IH]; [reflexivity|]. cbn. rewrite flat_map_app, IH. reflexivity. }
  rewrite E. apply flat_map_ext_in. intros z Hz. apply zseq_In in Hz. change (zrange (z * dh s) (dh s)) with (map (fun i => z * dh s + i) (zseq (dh s))). rewrite flat_map_map. apply flat_map_ext_in. intros y Hy. apply zseq_In in Hy. unfold zrange. rewrite map_map. apply map_ext_in. intros x Hx. apply zseq_In in Hx.
  destruct (k_coords s x y z) as (K1 & K2 & K3); [unfold inside; lia|]. replace ((z * dh s + y) * dw s + x) with (voxel_offset (dw s) (dh s) x y z) by (unfold voxel_offset; ring). rewrite K1, K2, K3. reflexivity.
Qed.
Lemma grid_In s x y z : In (x, y, z) (grid s) <-> inside s x y z.
Proof.
  unfold grid, inside. rewrite in_flat_map. split.
  - intros (z' & Hz & H). apply in_flat_map in H as (y' & Hy & H). apply in_map_iff in H as (x' & E & Hx). injection E as <- <- <-. rewrite zseq_In in *. lia.
  - intros H. exists z. split; [apply zseq_In; lia|]. apply in_flat_map. exists y. split; [apply zseq_In; lia|]. apply in_map_iff. exists x. split; [reflexivity|apply zseq_In; lia].
Qed.
Lemma value_k im k : wf_img im -> 0 <= k < dw (sz im) * dh (sz im) * dd (sz im) -> value im (kx (sz im) k) (ky (sz im) k) (kz (sz im) k) = znth 0 (pixs im) k.
Proof. intros (W & _) H. unfold value. rewrite (proj2 (k_voxel (sz im) k W H)). reflexivity. Qed.
Lemma value_pixel_is im x y z v : pixel_is im x y z v -> value im x y z = v.
Proof. intros (_ & H). apply znth_rd. exact H. Qed.

Definition at_k (im : img) (f : Z -> Z -> Z -> Z) (k : Z) : Z := znth 0 (pixs im) k * f (kx (sz im) k) (ky (sz im) k) (kz (sz im) k).
Lemma weighted_zseq im f : wf_img im -> weighted im f = Zsum (map (at_k im f) (zseq (Z.of_nat (length (pixs im))))).
Proof.
  intros W. unfold weighted. rewrite grid_zseq by apply W. rewrite map_map. rewrite (proj2 W). f_equal. apply map_ext_in. intros k Hk. apply zseq_In in Hk. rewrite value_k by assumption. reflexivity.
Qed.
Lemma bound_zseq im f : wf_img im -> weight_bound im f -> Zsum (map (fun k => Z.abs (at_k im f k)) (zseq (Z.of_nat (length (pixs im))))) <= 2 ^ 53.
Proof.
  intros W. unfold weight_bound. rewrite grid_zseq by apply W. rewrite map_map. rewrite (proj2 W). rewrite (map_ext_in _ (fun k => Z.abs (at_k im f k))); [trivial|]. intros k Hk. apply zseq_In in Hk. rewrite value_k by assumption. reflexivity.
Qed.
Lemma sum_filter (g : Z -> Z) p l : (forall k, In k l -> p k = false -> g k = 0) -> Zsum (map g (filter p l)) = Zsum (map g l).
Proof.
  induction l as [|a l IH]; intros H; [reflexivity|]. cbn [filter map]. rewrite Zsum_cons. specialize (IH (fun k Hk => H k (or_intror Hk))). destruct (p a) eqn:E; [cbn [map]; rewrite Zsum_cons; lia|]. rewrite (H a (or_introl eq_refl) E). lia.
Qed.
Lemma sum_sel im b g : (forall k, znth 0 (pixs im) k = 0 -> g k = 0) -> Zsum (map g (sel b im)) = Zsum (map g (zseq (Z.of_nat (length (pixs im))))).
Proof. intros H. unfold sel. destruct b; [|reflexivity]. apply sum_filter. intros k _ E. apply H. unfold nzb in E. lia. Qed.

Section Terms.
  Variables (im : img) (terms : Z -> Z -> Z -> Z -> list Z).
  Hypothesis W : wf_img im.
  Hypothesis W0 : 0 < dw (sz im).
  Let T (k : Z) : list Z := terms (znth 0 (pixs im) k) (kx (sz im) k) (ky (sz im) k) (kz (sz im) k).

  Lemma proc_terms_fold y z : 0 <= y < dh (sz im) -> 0 <= z < dd (sz im) -> forall n s a, 0 <= a -> a + Z.of_nat n <= dw (sz im) ->
    proc_terms terms s (map (znth 0 (pixs im)) (zrange (voxel_offset (dw (sz im)) (dh (sz im)) a y z) (Z.of_nat n))) a y z =
    fold_opt (fun s k => daccs s (T k)) (zrange (voxel_offset (dw (sz im)) (dh (sz im)) a y z) (Z.of_nat n)) s.
  Proof.
    intros Hy Hz. induction n as [|n IH]; intros s a Ha Hn; [reflexivity|]. rewrite zrange_cons by lia. cbn [map proc_terms fold_opt]. destruct (k_coords (sz im) a y z) as (K1 & K2 & K3); [unfold inside; lia|]. unfold T at 1. rewrite K1, K2, K3.
    replace (Z.of_nat (S n) - 1) with (Z.of_nat n) by lia. replace (voxel_offset (dw (sz im)) (dh (sz im)) a y z + 1) with (voxel_offset (dw (sz im)) (dh (sz im)) (a + 1) y z) by (unfold voxel_offset; ring).
    destruct (daccs s _) as [s'|]; [|reflexivity]. cbn [option_bind]. apply IH; lia.
  Qed.

  Lemma positions n b (fs : list (Z -> Z -> Z -> Z)) : Z.of_nat (length fs) = n -> (forall v x y z, terms v x y z = map (fun f => v * f x y z) fs) ->
    (forall f, In f fs -> weight_bound im f) ->
    process_image_pos (proc_terms terms) (repeat 0 (Z.to_nat n)) b im = Some (map (weighted im) fs).
  Proof.
    intros Ln Ht B. rewrite (process_image_pos_step _ (fun s k => daccs s (T k)) _ b im W).
    2: { intros s a m y z Hy Hz Ha Hm Ham _. rewrite <- (Z2Nat.id m Hm). apply proc_terms_fold; try assumption; lia. }
    2: exact W0.
    assert (LT : forall k, Z.of_nat (length (T k)) = n) by (intros k; unfold T; rewrite Ht, map_length; exact Ln).
    assert (Tj : forall j f k, rd fs j = Some f -> znth 0 (T k) j = at_k im f k) by (intros j f k H; apply znth_rd; unfold T; rewrite Ht, rd_map, H; reflexivity).
    destruct (fold_terms T n LT (sel b im) (repeat 0 (Z.to_nat n))) as (s' & E & L & R).
    - rewrite repeat_length. lia.
    - intros j a Hj. pose proof (rd_Some_range _ _ _ Hj) as Rg. rewrite repeat_length in Rg. apply rd_In, repeat_spec in Hj. subst a. destruct (rd_in_range fs j) as (f & Ef); [lia|]. unfold abs_sum. rewrite (map_ext _ (fun k => Z.abs (at_k im f k))) by (intros k; rewrite (Tj j f k Ef); reflexivity).
      rewrite sum_sel by (intros k Hk; unfold at_k; rewrite Hk; reflexivity). pose proof (bound_zseq im f W (B f (rd_In _ _ _ Ef))). cbn [Z.abs]. lia.
    - rewrite E. f_equal. apply list_ext_rd; [rewrite map_length; lia|]. intros j Hj. destruct (rd_in_range fs j) as (f & Ef); [lia|]. assert (R0 : rd (repeat 0 (Z.to_nat n)) j = Some 0) by (apply rd_repeat; lia).
      rewrite (R j 0 R0), rd_map, Ef. cbn [option_map]. f_equal. rewrite Z.add_0_l. unfold term_sum. rewrite (map_ext _ (at_k im f)) by (intros k; apply (Tj j f k Ef)). rewrite sum_sel by (intros k Hk; unfold at_k; rewrite Hk; reflexivity). symmetry. apply weighted_zseq. exact W.
  Qed.
End Terms.
