From Verif Require Export Proofs.MorphFilters.
From Verif Require Import Proofs.PixelProofs.

Lemma passes_one (T : img -> img -> Prop) im out : passes 1 T im out <-> T im out.
Proof. cbn. split; [intros (m & -> & H); exact H|eauto]. Qed.

Lemma fast_generic op Rel bv c c' se alias im out out' : (forall a b c, Rel (op a b) c <-> Rel a c /\ Rel b c) ->
  (forall a b : Z, (forall c : Z, Rel a c <-> Rel b c) -> a = b) ->
  good_img im -> wf_img out -> wf_img out' -> sz out = sz im -> sz out' = sz im -> (alias = true -> out = im) ->
  legal_conf (dh (sz im)) c -> legal_conf (dh (sz im)) c' -> typed_se se -> fits se (sz im) ->
  (forall p, In p (se_points se) -> - dw (sz im) <= px_ p /\ px_ p + bit (se_odd se) <= dw (sz im)) ->
  exists r, exec_single c op bv se alias im out = Some r /\ exec_generic c' op bv se im out' = Some r.
Proof.
  intros HO HE Him W W' S S' HA HL HL' HT HF HP. destruct (good_parts im Him) as (Ws & W0 & Wd).
  assert (exists G, out = mk_img (sz im) G /\ (alias = true -> G = pxv im)) as (G & EG & HG).
  { exists (pxv out). split; [rewrite <- S; apply img_mk; exact W|]. intros E. rewrite (HA E). reflexivity. }
  destruct (exec_single_ok op Rel bv (sz im) HO HE Ws W0 c se alias (pxv im) G HL HT HF Wd HG) as (R & E & HR).
  rewrite <- (img_mk im (proj1 Him)), <- EG in E. rewrite E. eexists. split; [reflexivity|].
  assert (out' = mk_img (sz im) (pxv out')) as E' by (rewrite <- S'; apply img_mk; exact W').
  destruct (se_points se) as [|p0 pts] eqn:Ep; [exfalso; apply (typed_nonempty se HT); exact Ep|].
  pose proof (generic_ok op bv (sz im) Ws W0 c' se (pxv im) (pxv out') p0 pts Ep) as Hgen.
  rewrite <- (img_mk im (proj1 Him)), <- E' in Hgen. rewrite Hgen; [|apply HL'|rewrite Ep; exact HP]. f_equal. apply mk_img_ext. intros x y z Hi.
  pose proof (HR x y z Hi) as HR1.
  eapply (lub_fun Rel HE); [|exact HR1]. apply (fold_lub op Rel HO (fun p => gval bv (sz im) (se_odd se) (pxv im) p x y z)).
Qed.

Lemma greatest_of (V : Z -> Prop) r : (forall q, r <= q <-> forall v, V v -> v <= q) -> (forall v, V v \/ ~ V v) -> greatest V r.
Proof.
  intros H Hd. split; [|apply H; lia]. destruct (Hd r) as [A|A]; [exact A|]. exfalso. assert (r <= r - 1); [|lia]. apply H.
  intros v Hv. assert (v <= r) by (revert v Hv; apply H; lia). assert (v <> r) by congruence. lia.
Qed.

Lemma least_of (V : Z -> Prop) r : (forall q, r >= q <-> forall v, V v -> v >= q) -> (forall v, V v \/ ~ V v) -> least V r.
Proof.
  intros H Hd. split; [|intros u Hu; assert (u >= r) by (revert u Hu; apply H; lia); lia]. destruct (Hd r) as [A|A]; [exact A|]. exfalso. assert (r >= r + 1); [|lia]. apply H.
  intros v Hv. assert (v >= r) by (revert v Hv; apply H; lia). assert (v <> r) by congruence. lia.
Qed.

Lemma bounded_dec n (P : Z -> Prop) : (forall i, P i \/ ~ P i) -> (exists i, Z.abs i <= n /\ P i) \/ ~ (exists i, Z.abs i <= n /\ P i).
Proof.
  intros HP. destruct (Z.lt_ge_cases n 0) as [L|L]; [right; intros (i & A & _); lia|].
  assert (forall m, 0 <= m -> (exists i, - n <= i < - n + m /\ P i) \/ ~ (exists i, - n <= i < - n + m /\ P i)) as K.
  { intros m Hm. pattern m. apply natlike_ind; [right; intros (i & A & _); lia| |exact Hm]. intros k Hk [(i & A & B)|IH]; [left; exists i; split; [lia|exact B]|].
    destruct (HP (- n + k)) as [B|B]; [left; exists (- n + k); split; [lia|exact B]|]. right. intros (i & A & C). destruct (Z.eq_dec i (- n + k)) as [->|N]; [auto|].
    apply IH. exists i. split; [lia|exact C]. }
  destruct (K (2 * n + 1) ltac:(lia)) as [(i & A & B)|N]; [left; exists i; split; [lia|exact B]|right]. intros (i & A & B). apply N. exists i. split; [lia|exact B].
Qed.

Lemma box_dec s bv F a b c x y z v (Q : Z -> Z -> Z -> Prop) : (forall i j k, Q i j k \/ ~ Q i j k) ->
  (exists x' y' z', (Z.abs (x' - x) <= a /\ Z.abs (y' - y) <= b /\ Z.abs (z' - z) <= c /\ Q (x' - x) (y' - y) (z' - z)) /\ v = bo s bv F x' y' z') \/
  ~ (exists x' y' z', (Z.abs (x' - x) <= a /\ Z.abs (y' - y) <= b /\ Z.abs (z' - z) <= c /\ Q (x' - x) (y' - y) (z' - z)) /\ v = bo s bv F x' y' z').
Proof.
  intros HQ. destruct (bounded_dec a (fun i => exists j, Z.abs j <= b /\ exists k, Z.abs k <= c /\ (Q i j k /\ v = bo s bv F (x + i) (y + j) (z + k)))) as [H|H].
  - intros i. apply bounded_dec. intros j. apply bounded_dec. intros k. destruct (HQ i j k) as [A|A]; [|right; tauto].
    destruct (Z.eq_dec v (bo s bv F (x + i) (y + j) (z + k))) as [B|B]; [left|right]; tauto.
  - left. destruct H as (i & Hi & j & Hj & k & Hk & HQ' & E). exists (x + i), (y + j), (z + k). rewrite <- E.
    replace (x + i - x) with i by lia. replace (y + j - y) with j by lia. replace (z + k - z) with k by lia. auto.
  - right. intros (x' & y' & z' & (H1 & H2 & H3 & H4) & E). apply H. exists (x' - x). split; [exact H1|]. exists (y' - y). split; [exact H2|]. exists (z' - z). split; [exact H3|].
    split; [exact H4|]. replace (x + (x' - x)) with x' by lia. replace (y + (y' - y)) with y' by lia. replace (z + (z' - z)) with z' by lia. exact E.
Qed.

Lemma box_values_iff s bv F a b c x y z v : wf_dims s ->
  (box_values a b c bv (mk_img s F) x y z v <-> exists x' y' z', (Z.abs (x' - x) <= a /\ Z.abs (y' - y) <= b /\ Z.abs (z' - z) <= c /\ True) /\ v = bo s bv F x' y' z').
Proof.
  intros Hw. unfold box_values. split.
  - intros (x' & y' & z' & A & B & C & D). apply bo_reads in D; [|exact Hw]. exists x', y', z'. auto.
  - intros (x' & y' & z' & (A & B & C & _) & D). exists x', y', z'. repeat split; auto. apply bo_reads; assumption.
Qed.

Lemma ball_values_iff s bv F k n x y z v : wf_dims s ->
  (ball_values k n bv (mk_img s F) x y z v <-> exists x' y' z', (Z.abs (x' - x) <= n /\ Z.abs (y' - y) <= n /\ Z.abs (z' - z) <= n /\
     (Z.abs (x' - x) + Z.abs (y' - y) + Z.abs (z' - z) <= n /\ (k = 0 -> z' - z = 0))) /\ v = bo s bv F x' y' z').
Proof.
  intros Hw. unfold ball_values. split.
  - intros (x' & y' & z' & A & B & C). apply bo_reads in C; [|exact Hw]. exists x', y', z'. split; [|exact C]. repeat split; lia.
  - intros (x' & y' & z' & (_ & _ & _ & A & B) & D). exists x', y', z'. repeat split; auto; [lia|]. apply bo_reads; assumption.
Qed.

Lemma box_values_dec s bv F a b c x y z v : wf_dims s -> box_values a b c bv (mk_img s F) x y z v \/ ~ box_values a b c bv (mk_img s F) x y z v.
Proof. intros Hw. rewrite box_values_iff by exact Hw. apply (box_dec s bv F a b c x y z v (fun _ _ _ => True)). auto. Qed.
Lemma ball_values_dec s bv F k n x y z v : wf_dims s -> ball_values k n bv (mk_img s F) x y z v \/ ~ ball_values k n bv (mk_img s F) x y z v.
Proof.
  intros Hw. rewrite ball_values_iff by exact Hw. apply (box_dec s bv F n n n x y z v (fun i j l => Z.abs i + Z.abs j + Z.abs l <= n /\ (k = 0 -> l = 0))).
  intros i j l. destruct (Z.le_gt_cases (Z.abs i + Z.abs j + Z.abs l) n) as [A|A]; [|right; lia].
  destruct (Z.eq_dec k 0) as [->|K]; [|left; split; [exact A|tauto]]. destruct (Z.eq_dec l 0) as [->|L]; [left; auto|right; intros (_ & H); auto].
Qed.

(** Dilation and erosion over windows. *)
Section Win.
Variables (junk : Z -> Z) (cs : nat -> conf) (bv : Z) (se : strelt) (alias : bool) (im out : img).
Hypothesis HC : call_ok cs alias im out.
Hypothesis HT : typed_se se.
Hypothesis Hn : 0 <= se_size se.
Hypothesis Hodd : se_odd se = false.

Lemma sym_transpose (P : Z -> Z -> Z -> Prop) : (forall p, In p (se_points se) <-> P (Z.abs (px_ p)) (Z.abs (py_ p)) (Z.abs (pz_ p))) ->
  forall p, In p (se_points (transpose se)) <-> P (Z.abs (px_ p)) (Z.abs (py_ p)) (Z.abs (pz_ p)).
Proof.
  intros H p. rewrite transpose_In, H. rewrite Hodd. destruct p as [[a b] c]. unfold refl_pt, px_, py_, pz_. cbn [fst snd andb bit].
  rewrite Z.sub_0_r, !Z.abs_opp. reflexivity.
Qed.

Lemma dilate_box a b c : 0 <= a -> 0 <= b -> 0 <= c -> fits se (sz im) ->
  (forall p, In p (se_points se) <-> Z.abs (px_ p) <= a /\ Z.abs (py_ p) <= b /\ Z.abs (pz_ p) <= c) ->
  exists D, dilate junk cs bv se alias im out = Some (1, D) /\ sz D = sz im /\ wf_img D /\
    forall x y z v, pixel_is D x y z v -> greatest (box_values (se_size se * a) (se_size se * b) (se_size se * c) bv im x y z) v.
Proof.
  intros Ha Hb Hc HF Hp. destruct HC as (Him & Wo & So & HA & HL). destruct (good_parts im Him) as (Ws & W0 & Wd).
  destruct (dilate_fun junk cs bv se alias im out Him Wo So HA HL HT Hn HF) as (R & E & HR). eexists. split; [exact E|]. split; [reflexivity|]. split; [apply mk_img_wf; exact Ws|].
  intros x y z v Hv. apply mk_img_is in Hv as (Hi & ->); [|exact Ws]. rewrite (img_mk im (proj1 Him)).
  apply greatest_of; [|intros v; apply box_values_dec; exact Ws]. intros q.
  rewrite (box_window Z.le bv (sz im) se Hodd a b c Hp Ha Hb Hc _ _ _ HR x y z q Hi). rewrite Z2Nat.id by exact Hn. split.
  - intros H v Hv. apply box_values_iff in Hv as (x' & y' & z' & (A & B & C & _) & ->); [|exact Ws]. apply H; assumption.
  - intros H x' y' z' A B C. apply H. apply box_values_iff; [exact Ws|]. exists x', y', z'. auto.
Qed.

Lemma erode_box a b c : 0 <= a -> 0 <= b -> 0 <= c -> fits (transpose se) (sz im) ->
  (forall p, In p (se_points se) <-> Z.abs (px_ p) <= a /\ Z.abs (py_ p) <= b /\ Z.abs (pz_ p) <= c) ->
  exists D, erode junk cs bv se alias im out = Some (1, D) /\ sz D = sz im /\ wf_img D /\
    forall x y z v, pixel_is D x y z v -> least (box_values (se_size se * a) (se_size se * b) (se_size se * c) bv im x y z) v.
Proof.
  intros Ha Hb Hc HF Hp. destruct HC as (Him & Wo & So & HA & HL). destruct (good_parts im Him) as (Ws & W0 & Wd).
  pose proof (sym_transpose (fun i j k => i <= a /\ j <= b /\ k <= c) Hp) as Hp'. cbv beta in Hp'.
  destruct (erode_fun junk cs bv se alias im out Him Wo So HA HL HT Hn HF) as (R & E & HR). eexists. split; [exact E|]. split; [reflexivity|]. split; [apply mk_img_wf; exact Ws|].
  intros x y z v Hv. apply mk_img_is in Hv as (Hi & ->); [|exact Ws]. rewrite (img_mk im (proj1 Him)).
  apply least_of; [|intros v; apply box_values_dec; exact Ws]. intros q.
  rewrite (box_window Z.ge bv (sz im) (transpose se) Hodd a b c Hp' Ha Hb Hc _ _ _ HR x y z q Hi). rewrite Z2Nat.id by exact Hn. split.
  - intros H v Hv. apply box_values_iff in Hv as (x' & y' & z' & (A & B & C & _) & ->); [|exact Ws]. apply H; assumption.
  - intros H x' y' z' A B C. apply H. apply box_values_iff; [exact Ws|]. exists x', y', z'. auto.
Qed.

Lemma dilate_ball k : k = 0 \/ k = 1 -> fits se (sz im) ->
  (forall p, In p (se_points se) <-> Z.abs (px_ p) + Z.abs (py_ p) + Z.abs (pz_ p) <= 1 /\ (k = 0 -> pz_ p = 0)) ->
  exists D, dilate junk cs bv se alias im out = Some (1, D) /\ sz D = sz im /\ wf_img D /\
    forall x y z v, pixel_is D x y z v -> greatest (ball_values k (se_size se) bv im x y z) v.
Proof.
  intros Hk HF Hp. destruct HC as (Him & Wo & So & HA & HL). destruct (good_parts im Him) as (Ws & W0 & Wd).
  destruct (dilate_fun junk cs bv se alias im out Him Wo So HA HL HT Hn HF) as (R & E & HR). eexists. split; [exact E|]. split; [reflexivity|]. split; [apply mk_img_wf; exact Ws|].
  intros x y z v Hv. apply mk_img_is in Hv as (Hi & ->); [|exact Ws]. rewrite (img_mk im (proj1 Him)).
  apply greatest_of; [|intros v; apply ball_values_dec; exact Ws]. intros q.
  rewrite (ball_window Z.le bv (sz im) se Hodd k Hk Hp _ _ _ HR x y z q Hi). rewrite Z2Nat.id by exact Hn. split.
  - intros H v Hv. apply ball_values_iff in Hv as (x' & y' & z' & (_ & _ & _ & A & B) & ->); [|exact Ws]. apply H; lia.
  - intros H x' y' z' A B. apply H. apply ball_values_iff; [exact Ws|]. exists x', y', z'. split; [|reflexivity]. repeat split; lia.
Qed.

Lemma erode_ball k : k = 0 \/ k = 1 -> fits (transpose se) (sz im) ->
  (forall p, In p (se_points se) <-> Z.abs (px_ p) + Z.abs (py_ p) + Z.abs (pz_ p) <= 1 /\ (k = 0 -> pz_ p = 0)) ->
  exists D, erode junk cs bv se alias im out = Some (1, D) /\ sz D = sz im /\ wf_img D /\
    forall x y z v, pixel_is D x y z v -> least (ball_values k (se_size se) bv im x y z) v.
Proof.
  intros Hk HF Hp. destruct HC as (Him & Wo & So & HA & HL). destruct (good_parts im Him) as (Ws & W0 & Wd).
  assert (forall p, In p (se_points (transpose se)) <-> Z.abs (px_ p) + Z.abs (py_ p) + Z.abs (pz_ p) <= 1 /\ (k = 0 -> pz_ p = 0)) as Hp'.
  { intros p. rewrite (sym_transpose (fun i j l => i + j + l <= 1 /\ (k = 0 -> l = 0))); [split; intros (A & B); (split; [exact A|]); intros Ek; specialize (B Ek); lia|].
    intros q. rewrite Hp. split; intros (A & B); (split; [exact A|]); intros Ek; specialize (B Ek); lia. }
  destruct (erode_fun junk cs bv se alias im out Him Wo So HA HL HT Hn HF) as (R & E & HR). eexists. split; [exact E|]. split; [reflexivity|]. split; [apply mk_img_wf; exact Ws|].
  intros x y z v Hv. apply mk_img_is in Hv as (Hi & ->); [|exact Ws]. rewrite (img_mk im (proj1 Him)).
  apply least_of; [|intros v; apply ball_values_dec; exact Ws]. intros q.
  rewrite (ball_window Z.ge bv (sz im) (transpose se) Hodd k Hk Hp' _ _ _ HR x y z q Hi). rewrite Z2Nat.id by exact Hn. split.
  - intros H v Hv. apply ball_values_iff in Hv as (x' & y' & z' & (_ & _ & _ & A & B) & ->); [|exact Ws]. apply H; lia.
  - intros H x' y' z' A B. apply H. apply ball_values_iff; [exact Ws|]. exists x', y', z'. split; [|reflexivity]. repeat split; lia.
Qed.
End Win.
