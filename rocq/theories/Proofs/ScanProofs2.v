(** Filters and mosaics. *)
From Verif Require Export Proofs.ScanProofs Proofs.MorphProofs.

(** ** Filters *)

Lemma pos_range im c : wf_img im -> In c (raster (sz im)) -> 0 <= scan_pos (sz im) c < Z.of_nat (length (pixs im)).
Proof. intros (_ & W) H. destruct c as ((x, y), z). apply raster_In in H. rewrite W. apply inside_range. exact H. Qed.
Lemma pos_inj s c d : In c (raster s) -> In d (raster s) -> scan_pos s c = scan_pos s d -> c = d.
Proof. destruct c as ((x, y), z), d as ((x', y'), z'). intros H H' E. apply raster_In in H, H'. destruct (voxel_inj s x y z x' y' z' H H' E) as (-> & -> & ->). reflexivity. Qed.
Lemma nbhd_raster se s c q : In q (nbhd se s c) -> In q (raster s).
Proof. destruct q as ((x, y), z). intros H. apply nbhd_In in H. apply raster_In. apply H. Qed.

Lemma rd_back im c q : wf_img im -> int_sized (sz im) -> In q (raster (sz im)) -> rd (pixs im) (to_size (scan_pos (sz im) c + (scan_pos (sz im) q - scan_pos (sz im) c))) = Some (znth 0 (pixs im) (scan_pos (sz im) q)).
Proof.
  intros W Hs Hq. pose proof (pos_range im q W Hq) as R. replace (_ + (_ - _)) with (scan_pos (sz im) q) by lia. unfold to_size. rewrite Z.mod_small; [apply rd_znth; exact R|]. destruct W as (_ & W). destruct Hs as (_ & _ & _ & Hs). lia.
Qed.

Lemma nb_values_ok se im c : wf_img im -> int_sized (sz im) -> nb_values (pixs im) (scan_pos (sz im) c) (map (fun q => scan_pos (sz im) q - scan_pos (sz im) c) (nbhd se (sz im) c)) = Some (values_on im (nbhd se (sz im) c)).
Proof.
  intros W Hs. unfold nb_values, values_on. rewrite map_map. assert (H : forall q, In q (nbhd se (sz im) c) -> In q (raster (sz im))) by (intros q; apply nbhd_raster). revert H. generalize (nbhd se (sz im) c) as l. induction l as [|q l IH]; intros H; [reflexivity|].
  cbn [map all_some]. rewrite rd_back by (auto; apply H; left; reflexivity). rewrite IH by (intros d Hd; apply H; right; exact Hd). reflexivity.
Qed.

Lemma fold_write {A} (pos : A -> Z) (h : A -> Z) l : forall out, (forall c, In c l -> 0 <= pos c < Z.of_nat (length out)) -> (forall c d, In c l -> In d l -> pos c = pos d -> c = d) ->
  exists out', fold_opt (fun out c => wr out (pos c) (h c)) l out = Some out' /\ length out' = length out /\ (forall c, In c l -> rd out' (pos c) = Some (h c)) /\ (forall i, (forall c, In c l -> pos c <> i) -> rd out' i = rd out i).
Proof.
  induction l as [|c l IH]; intros out HR HJ; cbn [fold_opt]; [exists out; repeat split; auto; intros c []|]. destruct (wr_Some out (pos c) (h c)) as (o1 & E1); [apply HR; left; reflexivity|]. rewrite E1. pose proof (wr_length _ _ _ _ E1) as L1.
  destruct (IH o1) as (out' & E & L & H1 & H2); [intros d Hd; rewrite L1; apply HR; right; exact Hd|intros d d' Hd Hd'; apply HJ; right; assumption|]. exists out'. split; [exact E|]. split; [lia|]. split.
  - intros d [<-|Hd]; [|apply H1; exact Hd]. destruct (in_dec Z.eq_dec (pos c) (map pos l)) as [Hi|Hn].
    + apply in_map_iff in Hi as (d & Ed & Hd). assert (c = d) by (apply HJ; [left; reflexivity|right; exact Hd|congruence]). subst d. apply H1. exact Hd.
    + rewrite H2; [|intros d Hd Ed; apply Hn; rewrite <- Ed; apply in_map; exact Hd]. rewrite (rd_wr _ _ _ _ _ E1), Z.eqb_refl. reflexivity.
  - intros i Hi. rewrite H2 by (intros d Hd; apply Hi; right; exact Hd). rewrite (rd_wr _ _ _ _ _ E1). pose proof (Hi c (or_introl eq_refl)). destruct (Z.eqb_spec (pos c) i); [contradiction|reflexivity].
Qed.

Lemma exec_inout_false {X} fuel (r : option X) : exec_inout fuel false r = option_map Some r.
Proof. destruct fuel; reflexivity. Qed.

Lemma local_filter_ok fuel f se im out : scannable (scaled se) (sz im) -> wf_img im -> wf_img out -> sz out = sz im ->
  (forall c, In c (raster (sz im)) -> exists v, f (values_on im (nbhd (scaled se) (sz im) c)) = Some v) ->
  exists res, local_filter fuel false f se im out = Some (Some (1, res)) /\ filtered (fun l v => f l = Some v) (scaled se) im res.
Proof.
  intros Hsc W Wo Es Hf. unfold local_filter. rewrite same_size_true by congruence. cbn [negb]. rewrite exec_inout_false, scan_image_ok by exact Hsc.
  set (h := fun c => match f (values_on im (nbhd (scaled se) (sz im) c)) with Some v => v | None => 0 end).
  assert (EF : forall b, fold_opt (fun st c => local_pixel f (pixs im) st (scan_pos (sz im) c) (map (fun q => scan_pos (sz im) q - scan_pos (sz im) c) (nbhd (scaled se) (sz im) c))) (raster (sz im)) b = fold_opt (fun out c => wr out (scan_pos (sz im) c) (h c)) (raster (sz im)) b).
  { intros b0. apply fold_opt_ext. intros b c Hc. unfold local_pixel. rewrite nb_values_ok by (auto; apply Hsc). cbn [option_bind]. unfold h. destruct (Hf c Hc) as (v & ->). reflexivity. }
  rewrite EF. destruct (fold_write (scan_pos (sz im)) h (raster (sz im)) (pixs out)) as (o & Eo & Lo & Ho & _).
  { intros c Hc. rewrite <- Es. apply pos_range; [exact Wo|rewrite Es; exact Hc]. } { intros c d. apply pos_inj. }
  rewrite Eo. cbn [option_map]. eexists. split; [reflexivity|]. split; [exact Es|]. split; [destruct Wo as (W1 & W2); split; [exact W1|cbn [pixs sz]; rewrite Lo; exact W2]|].
  intros x y z v (I & E). cbn [pixs sz] in *. rewrite Es in I, E. assert (Hc : In (x, y, z) (raster (sz im))) by (apply raster_In; exact I). specialize (Ho _ Hc). change (scan_pos (sz im) (x, y, z)) with (voxel_offset (dw (sz im)) (dh (sz im)) x y z) in Ho.
  rewrite Ho in E. injection E as <-. unfold h. destruct (Hf _ Hc) as (v & ->). reflexivity.
Qed.

(** Truncated quotients of doubles. *)
Lemma div_even_spec n d : 0 <= n -> 0 < d -> n / d <= div_even n d /\ 2 * d * div_even n d <= 2 * n + d.
Proof.
  intros Hn Hd. unfold div_even. pose proof (Z.div_mod n d ltac:(lia)). pose proof (Z.mod_pos_bound n d Hd). destruct ((2 * (n mod d) >? d) || ((2 * (n mod d) =? d) && Z.odd (n / d))) eqn:E; [|nia]. assert (d <= 2 * (n mod d)) by lia. nia.
Qed.
Lemma dquot_quot a b : Z.abs a < 2 ^ 53 -> 0 < b <= 2 ^ 53 -> dquot a b = Z.quot a b.
Proof.
  intros Ha Hb. unfold dquot. set (A := Z.abs a) in *. set (q := A / b). set (k := 52 - (if A <? b then -1 else Z.log2 q)).
  assert (HA : 0 <= A) by lia. assert (Hq : 0 <= q) by (apply Z.div_pos; lia). pose proof (Z.div_mod A b ltac:(lia)) as DM. pose proof (Z.mod_pos_bound A b ltac:(lia)) as MB. fold q in DM.
  assert (Kb : b < 2 ^ (k + 1) /\ 0 <= k).
  { unfold k. destruct (Z.ltb_spec A b) as [L|L]; [change (2 ^ (52 - -1 + 1)) with (2 ^ 54); lia|]. assert (1 <= q) by (apply Z.div_le_lower_bound; lia). destruct (Z.log2_spec q) as (L1 & L2); [lia|]. set (e := Z.log2 q) in *. assert (0 <= e) by apply Z.log2_nonneg.
    assert (e < 53). { apply (Z.pow_lt_mono_r_iff 2); [lia|lia|]. nia. } split; [|lia]. replace (52 - e + 1) with (53 - e) by lia.
    assert (E : 2 ^ 53 = 2 ^ (53 - e) * 2 ^ e) by (rewrite <- Z.pow_add_r by lia; f_equal; lia). assert (b * 2 ^ e < 2 ^ (53 - e) * 2 ^ e) by nia. assert (0 < 2 ^ e) by (apply Z.pow_pos_nonneg; lia). nia. }
  destruct Kb as (Kb & K0). rewrite Z.pow_add_r in Kb by lia. change (2 ^ 1) with 2 in Kb. set (P := 2 ^ k) in *. assert (HP : 0 < P) by (apply Z.pow_pos_nonneg; lia).
  destruct (div_even_spec (A * P) b) as (D1 & D2); [nia|lia|]. set (n1 := div_even (A * P) b) in *.
  assert (L1 : q * P <= n1). { etransitivity; [|exact D1]. apply Z.div_le_lower_bound; [lia|]. nia. }
  assert (L2 : n1 < (q + 1) * P). { destruct (Z.lt_ge_cases n1 ((q + 1) * P)) as [|G]; [assumption|]. exfalso. assert (1 <= b * (q + 1) - A) by nia. nia. }
  assert (E : n1 / P = q). { symmetry. apply (Z.div_unique_pos n1 P q (n1 - q * P)); lia. } rewrite E. unfold q, A. rewrite Z.quot_div by lia. rewrite (Z.sgn_pos b), (Z.abs_eq b) by lia. lia.
Qed.

Lemma dadd_sum l : forall a M, 0 <= M -> (forall v, In v l -> Z.abs v <= M) -> Z.abs a + Z.of_nat (length l) * M <= 2 ^ 53 -> fold_opt dadd l a = Some (a + Zsum l).
Proof.
  induction l as [|v l IH]; intros a M HM Hv H; cbn [fold_opt]; [unfold Zsum; cbn; rewrite Z.add_0_r; reflexivity|]. pose proof (Hv v (or_introl eq_refl)). cbn [length] in H. unfold dadd at 1. replace (Z.abs (a + v) <=? 2 ^ 53) with true by nia.
  rewrite (IH (a + v) M HM); [|intros u Hu; apply Hv; right; exact Hu|nia]. f_equal. change (Zsum (v :: l)) with (v + Zsum l). lia.
Qed.
Lemma Zsum_bounds l lo hi : (forall v, In v l -> lo <= v <= hi) -> Z.of_nat (length l) * lo <= Zsum l <= Z.of_nat (length l) * hi.
Proof. intros H. induction l as [|v l IH]; [cbn; lia|]. specialize (IH (fun u Hu => H u (or_intror Hu))). pose proof (H v (or_introl eq_refl)). change (Zsum (v :: l)) with (v + Zsum l). cbn [length]. lia. Qed.

Lemma mean_of_ok t l : l <> [] -> (forall v, In v l -> inty t v) -> Z.of_nat (length l) * 2 ^ nbits t < 2 ^ 53 -> mean_of t l = Some (Z.quot (Zsum l) (Z.of_nat (length l))).
Proof.
  intros Hn Hv Hc. unfold mean_of. assert (HT : tmin t <= 0 <= tmax t /\ 0 < tmax t /\ - (2 ^ nbits t) <= tmin t /\ tmax t < 2 ^ nbits t) by (destruct t; cbn; lia). assert (Hl : 0 < Z.of_nat (length l)) by (destruct l; [congruence|cbn [length]; lia]).
  rewrite (dadd_sum l 0 (2 ^ nbits t)); [|lia|intros v H; specialize (Hv v H); unfold inty in Hv; lia|lia]. cbn [option_bind Z.add]. replace (Z.of_nat (length l) =? 0) with false by lia.
  pose proof (Zsum_bounds l (tmin t) (tmax t)) as B. specialize (B (fun v H => Hv v H)). set (n := Z.of_nat (length l)) in *. set (S := Zsum l) in *.
  rewrite dquot_quot; [|nia|nia]. f_equal. apply wrap_id. unfold inty. pose proof (Z.quot_le_mono S (n * tmax t) n ltac:(lia) ltac:(lia)) as Q1. pose proof (Z.quot_le_mono (n * tmin t) S n ltac:(lia) ltac:(lia)) as Q2.
  rewrite (Z.mul_comm n), Z.quot_mul in Q1 by lia. rewrite (Z.mul_comm n), Z.quot_mul in Q2 by lia. lia.
Qed.

(** Order statistics. *)
Lemma insert_perm v l : Permutation (insert v l) (v :: l).
Proof. induction l as [|u l IH]; cbn; [reflexivity|]. destruct (u <? v); [|reflexivity]. rewrite IH. constructor. Qed.
Lemma zsort_perm l : Permutation (zsort l) l.
Proof. induction l as [|v l IH]; [reflexivity|]. change (Permutation (insert v (zsort l)) (v :: l)). rewrite insert_perm, IH. reflexivity. Qed.
Lemma zsort_sorted l : StronglySorted Z.le (zsort l).
Proof.
  induction l as [|v l IH]; [constructor|]. change (StronglySorted Z.le (insert v (zsort l))). revert IH. generalize (zsort l) as q. induction q as [|u q IHq]; intros H; cbn; [repeat constructor|]. apply StronglySorted_inv in H as (H & F).
  destruct (Z.ltb_spec u v).
  - constructor; [apply IHq; exact H|]. rewrite Forall_forall in *. intros x Hx. apply (Permutation_in _ (insert_perm v q)) in Hx as [<-|Hx]; [lia|apply F; exact Hx].
  - constructor; [constructor; assumption|]. constructor; [assumption|]. rewrite Forall_forall in *. intros x Hx. specialize (F x Hx). lia.
Qed.
Lemma count_perm P l l' : Permutation l l' -> count_if P l = count_if P l'.
Proof. unfold count_if. induction 1 as [|x l l' H IH|x y l|l l' l'' H1 IH1 H2 IH2]; cbn; [reflexivity|destruct (P x); cbn; lia|destruct (P x), (P y); reflexivity|lia]. Qed.
Lemma count_cons P v l : count_if P (v :: l) = (if P v then 1 else 0) + count_if P l.
Proof. unfold count_if. cbn [filter]. destruct (P v); cbn [length]; lia. Qed.
Lemma count_nonneg P l : 0 <= count_if P l. Proof. unfold count_if. lia. Qed.
Lemma sorted_rank l : forall k v, StronglySorted Z.le l -> rd l k = Some v -> count_if (fun u => u <? v) l <= k < count_if (fun u => u <=? v) l.
Proof.
  induction l as [|u l IH]; intros k v HS E; [apply rd_In in E; destruct E|]. apply StronglySorted_inv in HS as (HS & F). rewrite Forall_forall in F. pose proof (rd_Some_range _ _ _ E) as R. rewrite !count_cons. destruct (Z.eq_dec k 0) as [->|Nk].
  - cbn in E. injection E as ->. replace (v <? v) with false by lia. replace (v <=? v) with true by lia. pose proof (count_nonneg (fun u => u <=? v) l).
    assert (count_if (fun u => u <? v) l = 0); [|lia]. unfold count_if. replace (filter (fun u => u <? v) l) with (@nil Z); [reflexivity|]. clear - F. induction l as [|w l IH]; [reflexivity|]. cbn. pose proof (F w (or_introl eq_refl)). replace (w <? v) with false by lia. apply IH. intros x Hx. apply F. right. exact Hx.
  - replace k with (k - 1 + 1) in E by lia. rewrite rd_cons_succ in E by lia. specialize (IH (k - 1) v HS E). pose proof (F v (rd_In _ _ _ E)). replace (u <=? v) with true by lia. destruct (u <? v); lia.
Qed.
Lemma sort_ranked l k : 0 <= k < Z.of_nat (length l) -> exists v, rd (zsort l) k = Some v /\ ranked k l v.
Proof.
  intros H. pose proof (zsort_perm l) as P. destruct (rd_in_range (zsort l) k) as (v & E); [rewrite (Permutation_length P); exact H|]. exists v. split; [exact E|]. split; [apply (Permutation_in _ P); eapply rd_In; exact E|].
  rewrite <- !(count_perm _ _ _ P). apply sorted_rank; [apply zsort_sorted|exact E].
Qed.

Lemma memb_In v l : memb v l = true <-> In v l.
Proof. unfold memb. rewrite existsb_exists. split; [intros (u & H & E); apply Z.eqb_eq in E; subst; exact H|intros H; exists v; split; [exact H|apply Z.eqb_refl]]. Qed.
Lemma distinct_count l : Z.of_nat (length (fold_left (fun l v => if memb v l then l else l ++ [v]) l [])) = Z.of_nat (length (nodup Z.eq_dec l)).
Proof.
  assert (K : forall l acc, NoDup acc -> let r := fold_left (fun l v => if memb v l then l else l ++ [v]) l acc in NoDup r /\ forall v, In v r <-> In v acc \/ In v l).
  { clear. induction l as [|v l IH]; intros acc H; cbn [fold_left]; [split; [exact H|intros u; cbn; tauto]|]. destruct (memb v acc) eqn:M.
    - destruct (IH acc H) as (A & B). split; [exact A|]. intros u. rewrite B. apply memb_In in M. cbn [In]. split; [tauto|]. intros [|[<-|]]; tauto.
    - assert (N : ~ In v acc) by (rewrite <- memb_In; congruence). destruct (IH (acc ++ [v])) as (A & B); [apply NoDup_app'; [exact H|constructor; [intros []|constructor]|]; intros x Hx [<-|[]]; contradiction|]. split; [exact A|]. intros u. rewrite B, in_app_iff. cbn [In]. tauto. }
  destruct (K l [] (NoDup_nil Z)) as (A & B). f_equal. apply Nat.le_antisymm; apply NoDup_incl_length.
  - exact A.
  - intros u Hu. apply nodup_In. apply B in Hu as [[]|Hu]. exact Hu.
  - apply NoDup_nodup.
  - intros u Hu. apply nodup_In in Hu. apply B. right. exact Hu.
Qed.
