(** Proofs about blobsBarycenter. *)
From Verif Require Export Proofs.MomentsProofs2 Proofs.MeasureProofs2 Model.BlobPositions Spec.BlobPositionSpec.
From Coq Require Import QArith.
Local Open Scope Z_scope.

Lemma coords_of_offset s k : wf_dims s -> 0 <= k < dw s * dh s * dd s -> dw s * dh s * dd s <= 2 ^ 64 ->
  getCoordsFromOffset s k = Some (kx s k, ky s k, kz s k).
Proof.
  intros (W1 & W2 & W3) H B. unfold getCoordsFromOffset, to_size. rewrite (Z.mod_small k (2 ^ 64)) by lia.
  assert (P1 : 0 < dw s) by nia. assert (P2 : 0 < dh s) by nia.
  replace (dw s * dh s =? 0) with false by nia. replace (dw s =? 0) with false by lia. cbn [orb]. unfold kx, ky, kz.
  rewrite Z.rem_mul_r, <- Z.div_div by lia. rewrite (Z.mul_comm (dw s) ((k / dw s) mod dh s)), Z.div_add by lia. rewrite (Z.div_small (k mod dw s)) by (apply Z.mod_pos_bound; lia). reflexivity.
Qed.

Section Blob.
  Variables (im : img) (terms : Z -> Z -> Z -> Z -> list Z).
  Hypothesis W : wf_img im.
  Hypothesis W0 : 0 < dw (sz im).
  Hypothesis B : Z.of_nat (length (pixs im)) <= 2 ^ 64.
  Let T (k : Z) : list Z := terms (znth 0 (pixs im) k) (kx (sz im) k) (ky (sz im) k) (kz (sz im) k).

  Lemma process_blob_pos_fold seqs : Forall (run_in_line (dw (sz im))) seqs ->
    (forall k, In k (run_pixels seqs) -> 0 <= k < Z.of_nat (length (pixs im))) ->
    forall s, process_blob_pos (proc_terms terms) s seqs im = fold_opt (fun s k => daccs s (T k)) (run_pixels seqs) s.
  Proof.
    intros HF. unfold process_blob_pos. induction HF as [|[a n] l [Hn HL] HF IH]; intros HR s; cbn [fold_opt run_pixels flat_map]; [reflexivity|].
    cbn [fst snd] in *. fold (run_pixels l) in *. cbn [run_pixels flat_map fst snd] in HR. fold (run_pixels l) in HR.
    assert (A1 : 0 <= a < Z.of_nat (length (pixs im))) by (apply HR; apply in_or_app; left; apply zrange_In; lia).
    assert (A2 : 0 <= a + n - 1 < Z.of_nat (length (pixs im))) by (apply HR; apply in_or_app; left; apply zrange_In; lia).
    pose proof (proj2 W) as EL. destruct W as (WD & _).
    rewrite coords_of_offset by (try exact WD; lia). cbn [option_bind]. rewrite (subarray_ok 0) by lia. cbn [option_bind].
    rewrite fold_opt_app.
    assert (A3 : 0 <= a < dw (sz im) * dh (sz im) * dd (sz im)) by lia.
    destruct (k_voxel (sz im) a WD A3) as (I & V).
    assert (E : proc_terms terms s (map (znth 0 (pixs im)) (zrange a n)) (kx (sz im) a) (ky (sz im) a) (kz (sz im) a) = fold_opt (fun s k => daccs s (T k)) (zrange a n) s).
    { pose proof (proc_terms_fold im terms (ky (sz im) a) (kz (sz im) a)) as P. unfold inside in I. rewrite <- V at 1 5. rewrite <- (Z2Nat.id n) by lia.
      apply P; try lia. unfold kx. pose proof (Z.div_mod a (dw (sz im))). pose proof (Z.div_mod (a + n - 1) (dw (sz im))). pose proof (Z.mod_pos_bound (a + n - 1) (dw (sz im))). nia. }
    rewrite E. destruct (fold_opt _ (zrange a n) s); cbn [option_bind]; [|reflexivity]. apply IH. intros k Hk. apply HR. apply in_or_app. right. exact Hk.
  Qed.
End Blob.

(** ** Sums over a label *)
Definition lab_k (lab : img) (v : Z) : list Z := filter (fun k => znth 0 (pixs lab) k =? v) (zseq (Z.of_nat (length (pixs lab)))).
Lemma filter_map_in {A C} (g : A -> C) (p : C -> bool) (q : A -> bool) l : (forall a, In a l -> p (g a) = q a) -> filter p (map g l) = map g (filter q l).
Proof.
  induction l as [|a l IH]; intros H; [reflexivity|]. cbn. rewrite (H a (or_introl eq_refl)), (IH (fun b Hb => H b (or_intror Hb))). destruct (q a); reflexivity.
Qed.
Lemma label_grid_k lab v : wf_img lab -> label_grid lab v = map (fun k => (kx (sz lab) k, ky (sz lab) k, kz (sz lab) k)) (lab_k lab v).
Proof.
  intros W. unfold label_grid, lab_k. rewrite grid_zseq by apply W. rewrite (proj2 W). apply filter_map_in. intros k Hk. apply zseq_In in Hk. rewrite value_k by assumption. reflexivity.
Qed.
Lemma weighted_on_k im lab v f : wf_img im -> wf_img lab -> sz lab = sz im -> weighted_on im lab v f = Zsum (map (at_k im f) (lab_k lab v)).
Proof.
  intros W WL ES. unfold weighted_on. rewrite label_grid_k, map_map by exact WL. f_equal. apply map_ext_in. intros k Hk. apply filter_In in Hk as (Hk & _). apply zseq_In in Hk. rewrite (proj2 WL) in Hk. rewrite ES in *. rewrite value_k by (try exact W; exact Hk). reflexivity.
Qed.
Lemma abs_filter (g : Z -> Z) p l : (forall k, 0 <= g k) -> Zsum (map g (filter p l)) <= Zsum (map g l).
Proof. intros H. induction l as [|a l IH]; [cbn; lia|]. cbn [filter map]. rewrite Zsum_cons. specialize (H a). destruct (p a); cbn [map]; rewrite ?Zsum_cons; lia. Qed.

Lemma blob_bary_ok im lab v seqs : wf_img im -> wf_img lab -> sz lab = sz im -> 0 < dw (sz im) -> Z.of_nat (length (pixs im)) <= 2 ^ 64 -> exact_order1 im ->
  Forall (run_in_line (dw (sz im))) seqs -> run_pixels seqs = lab_k lab v ->
  blob_bary seqs im = Some ([ratio (weighted_on im lab v px_x) (weighted_on im lab v one3); ratio (weighted_on im lab v px_y) (weighted_on im lab v one3)] ++
                            (if dd (sz im) >? 1 then [ratio (weighted_on im lab v px_z) (weighted_on im lab v one3)] else [])).
Proof.
  intros W WL ES W0 B (B1 & Bx & By & Bz) HF HK. unfold blob_bary.
  assert (EL : length (pixs lab) = length (pixs im)) by (apply Nat2Z.inj; rewrite (proj2 W), (proj2 WL), ES; reflexivity).
  rewrite process_blob_pos_fold; try assumption.
  2: { intros k Hk. rewrite HK in Hk. apply filter_In in Hk as (Hk & _). apply zseq_In in Hk. lia. }
  rewrite HK. set (T := fun k => bary_terms (znth 0 (pixs im) k) (kx (sz im) k) (ky (sz im) k) (kz (sz im) k)).
  set (fs := [px_x; px_y; px_z; one3]).
  assert (Tj : forall j f k, rd fs j = Some f -> znth 0 (T k) j = at_k im f k).
  { intros j f k H. apply znth_rd. replace (T k) with (map (fun f => at_k im f k) fs). { rewrite rd_map, H. reflexivity. }
    unfold fs, T, bary_terms, at_k, px_x, px_y, px_z, one3. cbn [map]. rewrite Z.mul_1_r. reflexivity. }
  destruct (fold_terms T 4 (fun k => eq_refl) (lab_k lab v) [0; 0; 0; 0] eq_refl) as (s' & E & L & R).
  - intros j a Hj. pose proof (rd_Some_range _ _ _ Hj) as Rg. change [0; 0; 0; 0] with (repeat 0 4) in Hj. apply rd_In, repeat_spec in Hj. subst a.
    destruct (rd_in_range fs j) as (f & Ef); [exact Rg|]. unfold abs_sum. rewrite (map_ext _ (fun k => Z.abs (at_k im f k))) by (intros k; rewrite (Tj j f k Ef); reflexivity).
    assert (Bf : weight_bound im f) by (apply rd_In in Ef; destruct Ef as [<-|[<-|[<-|[<-|[]]]]]; assumption).
    pose proof (bound_zseq im f W Bf) as P. pose proof (abs_filter (fun k => Z.abs (at_k im f k)) (fun k => znth 0 (pixs lab) k =? v) (zseq (Z.of_nat (length (pixs im)))) (fun k => Z.abs_nonneg _)) as Q. unfold lab_k. rewrite EL. cbn [Z.abs]. lia.
  - unfold T in E. rewrite E. cbn [option_map]. change (depth im) with (dd (sz im)).
    assert (S : forall j f, rd fs j = Some f -> rd [0; 0; 0; 0] j = Some 0 -> znth 0 s' j = weighted_on im lab v f).
    { intros j f Ef H0. rewrite (znth_rd 0 _ _ _ (R j 0 H0)). rewrite weighted_on_k by assumption. unfold term_sum. rewrite (map_ext _ (at_k im f)) by (intros k; apply (Tj j f k Ef)). lia. }
    rewrite (S 0 px_x eq_refl eq_refl), (S 1 px_y eq_refl eq_refl), (S 2 px_z eq_refl eq_refl), (S 3 one3 eq_refl eq_refl). reflexivity.
Qed.

(** ** All the labels *)
Lemma process_blobs_key {R} (measure : list (Z * Z) -> img -> option R) (spec : Z -> R) onz lab im :
  wf_img lab -> 0 < dw (sz lab) ->
  (forall v seqs, Forall (run_in_line (dw (sz lab))) seqs -> run_pixels seqs = lab_k lab v -> measure seqs im = Some (spec v)) ->
  exists b res, computeBlobs onz lab = Some b /\ process_blobs measure b im = Some res /\
    StronglySorted Z.lt (mkeys res) /\
    (forall v, In v (mkeys res) <-> label_kept onz v = true /\ In v (pixs lab)) /\
    (forall v, label_kept onz v = true -> In v (pixs lab) -> mfind v res = Some (spec v)).
Proof.
  intros Hwf Hw HM. destruct (computeBlobs_ok onz lab Hwf Hw) as (b & Eb & S1 & S2 & S3). exists b.
  unfold process_blobs.
  destruct (fold_opt_inv (fun (done : blobs) res => msorted res /\ (forall v, In v (mkeys res) <-> In v (mkeys done)) /\
     (forall v, In v (mkeys done) -> mfind v res = Some (spec v)))
    (fun res (e : Z * list (Z * Z)) => option_bind (measure (snd e) im) (fun r => Some (mput (fst e) r res))) b []) as (res & E & H1 & H2 & H3).
  - split; [constructor|]. split; [reflexivity|intros v []].
  - intros done [v l] todo res E (H1 & H2 & H3). cbn [fst snd].
    assert (Fv : mfind v b = Some l) by (apply msorted_In; [exact S1|rewrite E; apply in_elt]).
    destruct (S3 v l Fv) as (O1 & O2 & O3). rewrite (HM v l O3 O1).
    cbn [option_bind]. eexists. split; [reflexivity|]. split; [apply msorted_mput; exact H1|]. split.
    + intros u. rewrite mkeys_mput, H2. unfold mkeys. rewrite map_app, in_app_iff. cbn. intuition.
    + intros u Hu. rewrite mfind_mput by exact H1. destruct (Z.eqb_spec u v) as [->|N]; [reflexivity|].
      apply H3. unfold mkeys in Hu. rewrite map_app, in_app_iff in Hu. cbn in Hu. intuition congruence.
  - exists res. split; [exact Eb|]. split; [exact E|]. split; [exact H1|]. split.
    + intros v. rewrite H2. apply S2.
    + intros v K1 K2. apply H3. apply S2. split; assumption.
Qed.

(** With the labels as weights, the sums are the label times the sums of the coordinates. *)
Lemma weighted_own lab v f : weighted_on lab lab v f = v * total_on lab v f.
Proof.
  unfold weighted_on, total_on, label_grid. induction (grid (sz lab)) as [|((x & y) & z) l IH]; [cbn; lia|]. cbn [filter]. destruct (Z.eqb_spec (value lab x y z) v) as [E|N]; [|exact IH]. cbn [map]. rewrite !Zsum_cons, IH, E. ring.
Qed.
