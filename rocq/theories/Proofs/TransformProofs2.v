From Verif Require Export Proofs.TransformProofs.

Lemma fold_opt_None {A B} (I : B -> Prop) (f : B -> A -> option B) l a b :
  I b -> (forall b a b', I b -> f b a = Some b' -> I b') -> In a l -> (forall b, I b -> f b a = None) ->
  fold_opt f l b = None.
Proof.
  intros Hb Hp Hin Hn. revert b Hb. induction l as [|c l IH]; intros b Hb; [destruct Hin|].
  cbn. destruct (f b c) as [b'|] eqn:E; [|reflexivity]. destruct Hin as [->|Hin]; [rewrite Hn in E by exact Hb; discriminate|].
  apply IH; [exact Hin|]. exact (Hp _ _ _ Hb E).
Qed.

Lemma scatter_None {I} (body : I -> option (Z * Z)) order px i a v :
  In i order -> body i = Some (a, v) -> ~ (0 <= a < Z.of_nat (length px)) -> scatter body order px = None.
Proof.
  intros Hi Hb Ha. unfold scatter. apply (fold_opt_None (fun b => length b = length px) _ _ i); auto.
  - intros b j b' HL. destruct (body j) as [[a' v']|]; cbn; [|discriminate]. intros E. rewrite (wr_length _ _ _ _ E). exact HL.
  - intros b HL. rewrite Hb. cbn. apply wr_None. rewrite HL. exact Ha.
Qed.

(** Images given by a function of the coordinates. *)
Definition mk_img (s : dims) (g : Z -> Z -> Z -> Z) : img := Img s (map (fun '(x, y, z) => g x y z) (grid (dw s) (dh s) (dd s))).

Lemma grid_length3 nx ny nz : 0 <= nx -> 0 <= ny -> 0 <= nz -> Z.of_nat (length (grid nx ny nz)) = nx * ny * nz.
Proof.
  intros. unfold grid. rewrite (flat_map_const_length _ _ (Z.to_nat (nx * ny))).
  - rewrite zseq_length. lia.
  - intros z _. rewrite (flat_map_const_length _ _ (Z.to_nat nx)).
    + rewrite zseq_length. rewrite Z2Nat.inj_mul by lia. lia.
    + intros y _. rewrite map_length. apply zseq_length.
Qed.

Lemma rd_grid3 s x y z : wf_dims s -> inside s x y z ->
  rd (grid (dw s) (dh s) (dd s)) (voxel_offset (dw s) (dh s) x y z) = Some (x, y, z).
Proof.
  intros (H1 & H2 & H3) (Hx & Hy & Hz). unfold grid, voxel_offset.
  revert z Hz. refine (natlike_rect' (fun d => forall z, 0 <= z < d ->
    rd (flat_map (fun z => flat_map (fun y => map (fun x => (x, y, z)) (zseq (dw s))) (zseq (dh s))) (zseq d))
       (x + dw s * (y + dh s * z)) = Some (x, y, z)) (dd s) _ _ H3); [lia|].
  intros d Hd IH z Hz. rewrite zseq_succ, flat_map_app, rd_app by exact Hd. cbn [flat_map]. rewrite app_nil_r.
  assert (Z.of_nat (length (flat_map (fun z => flat_map (fun y => map (fun x => (x, y, z)) (zseq (dw s))) (zseq (dh s))) (zseq d)))
          = dw s * dh s * d) as HL by (apply (grid_length3 (dw s) (dh s) d); assumption).
  rewrite HL. destruct (Z.ltb_spec (x + dw s * (y + dh s * z)) (dw s * dh s * d)) as [L|L].
  - apply IH. destruct (Z.eq_dec z d) as [->|]; [|lia]. exfalso.
    assert (0 <= dw s * y) by (apply Z.mul_nonneg_nonneg; lia). nia.
  - assert (z = d) as ->.
    { destruct (Z.eq_dec z d); [assumption|]. exfalso.
      assert (x + dw s * (y + dh s * z) < dw s * dh s * (z + 1)) by (assert (dw s * y <= dw s * (dh s - 1)) by (apply Z.mul_le_mono_nonneg_l; lia); nia).
      assert (dw s * dh s * (z + 1) <= dw s * dh s * d) by (apply Z.mul_le_mono_nonneg_l; [apply Z.mul_nonneg_nonneg|]; lia). lia. }
    replace (x + dw s * (y + dh s * d) - dw s * dh s * d) with (y * dw s + x) by ring.
    rewrite (rd_grid (fun y x => (x, y, d))) by lia. reflexivity.
Qed.

Lemma mk_img_wf s g : wf_dims s -> wf_img (mk_img s g).
Proof. intros H. split; [exact H|]. cbn. rewrite map_length. destruct H as (? & ? & ?). apply grid_length3; assumption. Qed.

Lemma mk_img_is s g x y z v : wf_dims s -> (pixel_is (mk_img s g) x y z v <-> inside s x y z /\ v = g x y z).
Proof.
  intros H. unfold pixel_is. cbn. rewrite rd_map. split.
  - intros (Hi & E). split; [exact Hi|]. rewrite rd_grid3 in E by assumption. cbn in E. congruence.
  - intros (Hi & ->). split; [exact Hi|]. rewrite rd_grid3 by assumption. reflexivity.
Qed.

Lemma img_mk im : wf_img im -> im = mk_img (sz im) (pxv im).
Proof.
  intros H. apply img_ext; auto; [apply mk_img_wf; apply H|]. intros x y z v Hv. pose proof Hv as (Hi & _).
  apply mk_img_is; [apply H|]. split; [exact Hi|]. symmetry. apply pxv_is. exact Hv.
Qed.

Lemma pixel_iff im im' x y z x' y' z' u : pixel_is im x y z u -> pixel_is im' x' y' z' u ->
  forall v, pixel_is im x y z v <-> pixel_is im' x' y' z' v.
Proof.
  intros H H' v. split; intros Hv.
  - rewrite (pixel_is_fun _ _ _ _ _ _ Hv H). exact H'.
  - rewrite (pixel_is_fun _ _ _ _ _ _ Hv H'). exact H.
Qed.

(** A full remapping loop: every voxel of the output is written once. *)
Lemma remap_ok (body : Z * Z * Z -> option (Z * Z)) (tgt src : Z * Z * Z -> Z * Z * Z) order imIn s px :
  wf_img imIn -> wf_img (Img s px) ->
  (forall c, In c order -> let '(x, y, z) := tgt c in let '(i, j, k) := src c in
     inside (sz imIn) i j k /\ inside s x y z /\ body c = Some (voxel_offset (dw s) (dh s) x y z, pxv imIn i j k)) ->
  (forall c c', In c order -> In c' order -> tgt c = tgt c' -> src c = src c') ->
  exists px', scatter body order px = Some px' /\ wf_img (Img s px') /\
    (forall c, In c order -> let '(x, y, z) := tgt c in let '(i, j, k) := src c in
       forall v, pixel_is (Img s px') x y z v <-> pixel_is imIn i j k v).
Proof.
  intros Wi Wo HB HF.
  destruct (scatter_voxels body tgt (fun c => let '(i, j, k) := src c in pxv imIn i j k) order s px Wo) as (px' & E & W & H1 & _).
  - intros c Hc. specialize (HB c Hc). destruct (tgt c) as [[x y] z], (src c) as [[i j] k]. tauto.
  - intros c c' Hc Hc' Et. rewrite (HF c c' Hc Hc' Et). reflexivity.
  - exists px'. split; [exact E|]. split; [exact W|]. intros c Hc. specialize (H1 c Hc). specialize (HB c Hc).
    destruct (tgt c) as [[x y] z], (src c) as [[i j] k]. apply pixel_iff with (pxv imIn i j k); [exact H1|].
    apply pxv_ok; tauto.
Qed.

(** Flips. *)
Lemma same_size_eq a b : same_size a b = true <-> sz a = sz b.
Proof.
  unfold same_size, width, height, depth. destruct (sz a), (sz b). cbn. split; [intros; f_equal; lia|].
  intros [= -> -> ->]. lia.
Qed.

Lemma flip_bad sched vf imIn imOut : sz imIn <> sz imOut -> flipIt sched vf imIn imOut = Some (-98, imOut).
Proof.
  intros H. unfold flipIt. destruct (same_size imIn imOut) eqn:E; [|reflexivity]. apply same_size_eq in E. contradiction.
Qed.

Lemma flip_ok sched vf imIn imOut : legal_sched sched -> wf_img imIn -> wf_img imOut -> sz imIn = sz imOut ->
  exists out, flipIt sched vf imIn imOut = Some (1, out) /\ wf_img out /\ sz out = sz imIn /\
    forall x y z v, inside (sz imIn) x y z ->
      (pixel_is out x y z v <->
       pixel_is imIn (if vf then x else dw (sz imIn) - 1 - x) (if vf then dh (sz imIn) - 1 - y else y) z v).
Proof.
  intros HS Wi Wo Es. unfold flipIt. rewrite (proj2 (same_size_eq imIn imOut) Es). cbn [negb]. unfold width, height, depth.
  set (w := dw (sz imIn)). set (h := dh (sz imIn)). set (d := dd (sz imIn)).
  destruct (remap_ok
    (fun '(x, y, z) => if vf then move_px (fun v => v) imIn (sz imOut) x y z x (h - 1 - y) z
       else move_px (fun v => v) imIn (sz imOut) (w - 1 - x) y z x y z)
    (fun '(x, y, z) => if vf then (x, h - 1 - y, z) else (x, y, z))
    (fun '(x, y, z) => if vf then (x, y, z) else (w - 1 - x, y, z))
    (sched (grid w h d)) imIn (sz imOut) (pixs imOut)) as (px & E & W & H).
  - exact Wi.
  - destruct imOut; exact Wo.
  - intros [[x y] z] Hc. apply HS, grid_In in Hc.
    destruct vf; (split; [unfold inside; fold w h d; lia|]; split; [rewrite <- Es; unfold inside; fold w h d; lia|]);
      apply move_px_ok; auto; try apply Wo; try (rewrite <- Es); unfold inside; fold w h d; lia.
  - intros [[x y] z] [[x' y'] z'] _ _. destruct vf; intros Et; injection Et as E1 E2 E3; repeat f_equal; lia.
  - rewrite E. cbn. eexists. split; [reflexivity|]. split; [exact W|]. split; [symmetry; exact Es|].
    intros x y z v (Hx & Hy & Hz). fold w h d in Hx, Hy, Hz. destruct vf.
    + specialize (H (x, h - 1 - y, z)). cbn in H. rewrite Z.sub_sub_distr, Z.sub_diag in H. apply H. apply HS, grid_In. lia.
    + specialize (H (x, y, z)). cbn in H. apply H. apply HS, grid_In. lia.
Qed.

Lemma flip_twice sched sched' vf imIn imOut imOut' out : legal_sched sched -> legal_sched sched' ->
  wf_img imIn -> wf_img imOut -> wf_img imOut' ->
  sz imIn = sz imOut -> sz imOut' = sz imIn -> flipIt sched vf imIn imOut = Some (1, out) ->
  flipIt sched' vf out imOut' = Some (1, imIn).
Proof.
  intros HS HS' Wi Wo Wo' Es Es' E. destruct (flip_ok sched vf imIn imOut HS Wi Wo Es) as (o & E' & W & Eo & H).
  rewrite E in E'. injection E' as <-.
  destruct (flip_ok sched' vf out imOut' HS' W Wo' ltac:(congruence)) as (r & Er & Wr & Ez & H2). rewrite Er. do 2 f_equal.
  apply img_ext; auto; [congruence|]. intros x y z v Hv. pose proof Hv as (Hi & _). rewrite Ez in Hi.
  apply H2 in Hv; [|exact Hi]. rewrite Eo in Hi, Hv. pose proof Hi as (? & ? & ?).
  apply H in Hv; [|unfold inside; destruct vf; lia].
  destruct vf; rewrite Z.sub_sub_distr, Z.sub_diag in Hv; exact Hv.
Qed.

(** Rotation. *)
Lemma quarter_fun im o o' : quarter im o -> quarter im o' -> wf_img im -> o = o'.
Proof.
  intros (E & W & H) (E' & W' & H') Wi. apply img_ext; auto; [congruence|]. intros x y z v Hv. pose proof Hv as (Hi & _).
  apply H' ; [congruence|]. apply H; assumption.
Qed.

Lemma quarter_wf im o : quarter im o -> wf_img o.
Proof. intros (_ & W & _). exact W. Qed.

Lemma turns_fun n im o o' : wf_img im -> turns n im o -> turns n im o' -> o = o'.
Proof.
  revert im; induction n as [|n IH]; intros im Wi H H'; cbn in *; [congruence|].
  destruct H as (m & Hm & H), H' as (m' & Hm' & H'). rewrite <- (quarter_fun _ _ _ Hm Hm' Wi) in H'.
  apply (IH m); auto. apply (quarter_wf _ _ Hm).
Qed.

Lemma turns_wf n im o : wf_img im -> turns n im o -> wf_img o.
Proof.
  revert im; induction n as [|n IH]; intros im Wi H; cbn in *; [congruence|]. destruct H as (m & Hm & H).
  apply (IH m); auto. apply (quarter_wf _ _ Hm).
Qed.

Definition quarter_img (im : img) : img :=
  mk_img (Dims (dh (sz im)) (dw (sz im)) (dd (sz im))) (fun x y z => pxv im y (dh (sz im) - 1 - x) z).

Lemma quarter_ok im : wf_img im -> quarter im (quarter_img im).
Proof.
  intros W. pose proof W as ((? & ? & ?) & _). split; [reflexivity|]. split; [apply mk_img_wf; repeat split; assumption|].
  intros x y z v (Hx & Hy & Hz). cbn in Hx, Hy, Hz. unfold quarter_img. rewrite mk_img_is by (repeat split; assumption).
  assert (inside (sz im) y (dh (sz im) - 1 - x) z) as Hi by (unfold inside; lia).
  pose proof (pxv_ok im _ _ _ W Hi) as P. split.
  - intros (_ & ->). exact P.
  - intros Hv. split; [unfold inside; cbn; lia|]. apply (pixel_is_fun _ _ _ _ _ _ Hv P).
Qed.

Lemma turns_exist n im : wf_img im -> exists o, turns n im o.
Proof.
  revert im; induction n as [|n IH]; intros im W; [exists im; reflexivity|].
  destruct (IH (quarter_img im)) as (o & H); [apply (quarter_wf im), quarter_ok, W|].
  exists o. exists (quarter_img im). split; [apply quarter_ok, W|exact H].
Qed.

Lemma turns_add a b im o : turns (a + b) im o <-> exists m, turns a im m /\ turns b m o.
Proof.
  revert im; induction a as [|a IH]; intros im; cbn.
  - split; [intros H; exists im; auto|intros (m & -> & H); exact H].
  - split.
    + intros (m & Hm & H). apply IH in H as (m' & H1 & H2). exists m'. split; [exists m; auto|exact H2].
    + intros (m' & (m & Hm & H1) & H2). exists m. split; [exact Hm|]. apply IH. exists m'. auto.
Qed.

Lemma turns2_is im o x y z : turns 2 im o -> inside (sz im) x y z ->
  sz o = sz im /\ forall v, pixel_is o x y z v <-> pixel_is im (dw (sz im) - 1 - x) (dh (sz im) - 1 - y) z v.
Proof.
  intros (m & (E1 & W1 & H1) & m' & (E2 & W2 & H2) & Ho) (Hx & Hy & Hz). cbn in Ho. subst m'.
  assert (sz o = sz im) as Es by (rewrite E2, E1; cbn; destruct (sz im); reflexivity).
  split; [exact Es|]. intros v. rewrite H2 by (rewrite Es; unfold inside; lia). rewrite E1. cbn.
  rewrite H1; [|rewrite E1; unfold inside; cbn; lia]. reflexivity.
Qed.

Lemma turns4 im o : wf_img im -> turns 4 im o -> o = im.
Proof.
  intros W H. apply (turns_add 2 2) in H as (m & H1 & H2).
  pose proof (turns_wf _ _ _ W H1) as Wm. pose proof (turns_wf _ _ _ Wm H2) as Wo.
  destruct (Z_lt_dec 0 (dw (sz im))) as [Lw|Lw]; [destruct (Z_lt_dec 0 (dh (sz im))) as [Lh|Lh]; [destruct (Z_lt_dec 0 (dd (sz im))) as [Ld|Ld]|]|].
  - destruct (turns2_is im m 0 0 0 H1) as (Em & _); [unfold inside; lia|].
    destruct (turns2_is m o 0 0 0 H2) as (Eo & _); [rewrite Em; unfold inside; lia|].
    apply img_ext; auto; [congruence|]. intros x y z v Hv. pose proof Hv as (Hi & _). rewrite Eo in Hi.
    apply (turns2_is m o x y z H2 Hi) in Hv. rewrite Em in Hi, Hv. pose proof Hi as (? & ? & ?).
    apply (turns2_is im m _ _ _ H1) in Hv; [|unfold inside; lia].
    replace (dw (sz im) - 1 - (dw (sz im) - 1 - x)) with x in Hv by lia.
    replace (dh (sz im) - 1 - (dh (sz im) - 1 - y)) with y in Hv by lia. exact Hv.
  - apply img_ext; auto.
    2: { intros x y z v ((? & ? & ?) & _). exfalso. clear - H1 H2 H H0 H3 Ld W Wm Wo.
         destruct H1 as (? & (E1 & _) & ? & (E2 & _) & E3). destruct H2 as (? & (E4 & _) & ? & (E5 & _) & E6). cbn in *. subst.
         rewrite E5, E4, E2, E1 in *. cbn in *. lia. }
    destruct H1 as (? & (E1 & _) & ? & (E2 & _) & E3). destruct H2 as (? & (E4 & _) & ? & (E5 & _) & E6). cbn in *. subst.
    rewrite E5, E4, E2, E1. cbn. destruct (sz im); reflexivity.
  - apply img_ext; auto.
    2: { intros x y z v ((? & ? & ?) & _). exfalso. clear - H1 H2 H H0 H3 Lh W Wm Wo.
         destruct H1 as (? & (E1 & _) & ? & (E2 & _) & E3). destruct H2 as (? & (E4 & _) & ? & (E5 & _) & E6). cbn in *. subst.
         rewrite E5, E4, E2, E1 in *. cbn in *. lia. }
    destruct H1 as (? & (E1 & _) & ? & (E2 & _) & E3). destruct H2 as (? & (E4 & _) & ? & (E5 & _) & E6). cbn in *. subst.
    rewrite E5, E4, E2, E1. cbn. destruct (sz im); reflexivity.
  - apply img_ext; auto.
    2: { intros x y z v ((? & ? & ?) & _). exfalso. clear - H1 H2 H H0 H3 Lw W Wm Wo.
         destruct H1 as (? & (E1 & _) & ? & (E2 & _) & E3). destruct H2 as (? & (E4 & _) & ? & (E5 & _) & E6). cbn in *. subst.
         rewrite E5, E4, E2, E1 in *. cbn in *. lia. }
    destruct H1 as (? & (E1 & _) & ? & (E2 & _) & E3). destruct H2 as (? & (E4 & _) & ? & (E5 & _) & E6). cbn in *. subst.
    rewrite E5, E4, E2, E1. cbn. destruct (sz im); reflexivity.
Qed.
