(** Attribute closings. *)
From Verif Require Export Proofs.MaxTreeProofs10 Proofs.HitOrMissProofs.

Lemma neg_back t a b x y z w : wf_img a -> negative t a b -> pixel_is b x y z w -> exists u, pixel_is a x y z u /\ w = tmin t + tmax t - u.
Proof.
  intros W (S & Wb & H) P. destruct (pixel_exists a x y z W) as (u & Pu); [rewrite <- S; apply P|]. exists u. split; [exact Pu|].
  exact (pixel_is_fun _ _ _ _ _ _ P (H _ _ _ _ Pu)).
Qed.
Lemma neg_sym t a b : wf_img a -> negative t a b -> negative t b a.
Proof.
  intros W N. pose proof N as (S & Wb & H). split; [congruence|]. split; [exact W|]. intros x y z w P. destruct (neg_back t a b x y z w W N P) as (u & Pu & ->).
  replace (tmin t + tmax t - (tmin t + tmax t - u)) with u by lia. exact Pu.
Qed.

Lemma joined_map se (ok ok' : Z -> Prop) seed a b : sz a = sz b -> (forall x y z u, pixel_is a x y z u -> ok u -> exists v, pixel_is b x y z v /\ ok' v) ->
  forall x y z, joined se ok seed a x y z -> joined se ok' seed b x y z.
Proof.
  intros S H x y z J. induction J as [x y z v Sd P O|x y z x' y' z' v J IH Se P O]; destruct (H _ _ _ _ P O) as (w & Pw & Ow); [eapply joined_seed|eapply joined_step]; eassumption.
Qed.

Lemma lower_upper t se a b h x y z p q r : wf_img a -> negative t a b ->
  (lower_zone se a h x y z p q r <-> upper_zone se b (tmin t + tmax t - h) x y z p q r).
Proof.
  intros W N. pose proof N as (S & Wb & H). split; apply joined_map.
  - congruence.
  - intros i j k u P O. exists (tmin t + tmax t - u). split; [apply H; exact P|lia].
  - exact S.
  - intros i j k w P O. destruct (neg_back t a b i j k w W N P) as (u & Pu & ->). exists u. split; [exact Pu|lia].
Qed.

Lemma closed_opened t k n se a b out out' : wf_img a -> wf_img out -> negative t a b -> negative t out' out -> attr_opened k n se b out' -> attr_closed k n se a out.
Proof.
  intros W Wo N N' (S1 & W1 & m & ((x0 & y0 & z0 & P0) & M) & H). pose proof N as (S & Wb & Hb). pose proof N' as (S' & _ & Hb').
  split; [congruence|]. split; [exact Wo|]. exists (tmin t + tmax t - m). split.
  - split.
    + destruct (neg_back t a b _ _ _ _ W N P0) as (u & Pu & ->). exists x0, y0, z0. replace (tmin t + tmax t - (tmin t + tmax t - u)) with u by lia. exact Pu.
    + intros x y z v P. specialize (M _ _ _ _ (Hb _ _ _ _ P)). lia.
  - intros x y z v o Pv Po. destruct (neg_back t out' out x y z o W1 N' Po) as (o' & Po' & ->). destruct (H x y z _ o' (Hb _ _ _ _ Pv) Po') as (A & B & C).
    split; [lia|]. split.
    + destruct B as [-> |B]; [auto|right]. eapply zone_has_mono; [|exact B]. intros p q r Z. apply (lower_upper t se a b); [exact W|exact N|].
      replace (tmin t + tmax t - (tmin t + tmax t - o')) with o' by lia. exact Z.
    + intros h Hh Z. apply (C (tmin t + tmax t - h) ltac:(lia)). eapply zone_has_mono; [|exact Z]. intros p q r. apply (lower_upper t se a b); assumption.
Qed.

Lemma neg_typed t a b : wf_img a -> typed_img t a -> negative t a b -> typed_img t b.
Proof.
  intros W T N. apply typed_pix; [apply N|]. intros x y z w P. destruct (neg_back t a b x y z w W N P) as (u & Pu & ->).
  pose proof (proj1 (Forall_forall _ _) T u (rd_In _ _ _ (proj2 Pu))) as Hu. unfold inty in *. lia.
Qed.

Lemma neg_tree_ok t se a b : tree_ok t se a -> negative t a b -> tree_ok t se b.
Proof.
  intros (Ht & W & Ty & Hs & Hpt & HP & Hsy & Hc & HN) N. pose proof N as (S & Wb & H). unfold tree_ok. rewrite S. split; [exact Ht|]. split; [exact Wb|]. split; [exact (neg_typed t a b W Ty N)|].
  repeat (split; [assumption|]). split; [|exact HN]. intros x y z x' y' z' I I'. rewrite S in I, I'. specialize (Hc x y z x' y' z' I I'). revert Hc. apply joined_map; [congruence|].
  intros i j k u P _. eexists. split; [apply H; exact P|exact Logic.I].
Qed.

Lemma opened_typed t k n se im out : typed_img t im -> wf_img im -> attr_opened k n se im out -> typed_img t out.
Proof.
  intros T W (S & Wo & m & ((x0 & y0 & z0 & P0) & M) & H). apply typed_pix; [exact Wo|]. intros x y z o P. destruct (pixel_exists im x y z W) as (v & Pv); [rewrite <- S; apply P|].
  destruct (H _ _ _ _ _ Pv P) as (A & _). pose proof (proj1 (Forall_forall _ _) T v (rd_In _ _ _ (proj2 Pv))) as Hv. pose proof (proj1 (Forall_forall _ _) T m (rd_In _ _ _ (proj2 P0))) as Hm. unfold inty in *. lia.
Qed.

Theorem attributeClose_spec fuel t k se im imOut n : tree_ok t se im -> sz imOut = sz im -> (2 * length (pixs im) + 1 <= fuel)%nat ->
  exists out, attributeClose fuel t k se im n imOut = Some (Some (1, out)) /\ attr_closed k n se im out.
Proof.
  intros T Es F. pose proof T as (Ht & W & Ty & _). pose proof (inv_negative t im W Ty) as N. pose proof (neg_tree_ok t se im _ T N) as T'.
  destruct (attributeOpen_spec fuel t k se (pw1 (px_inv t) im) imOut n T') as (o & E & A).
  - exact Es.
  - cbn [pw1 pixs]. rewrite map_length. exact F.
  - pose proof A as (So & Wo & _). pose proof T' as (_ & Wi & Ty' & _). pose proof (opened_typed t k n se _ o Ty' Wi A) as To.
    pose proof (inv_negative t o Wo To) as N'. exists (pw1 (px_inv t) o). split.
    + unfold attributeClose. rewrite same_size_true by congruence. cbn [negb]. rewrite E. reflexivity.
    + eapply closed_opened; [exact W|apply N'|exact N|exact N'|exact A].
Qed.

(** The other way round: closing is opening of the negative. *)
Lemma opened_closed t k n se a b out out' : wf_img a -> wf_img out -> negative t a b -> negative t out out' -> attr_closed k n se a out -> attr_opened k n se b out'.
Proof.
  intros W Wo N N' (S1 & W1 & m & ((x0 & y0 & z0 & P0) & M) & H). pose proof N as (S & Wb & Hb). pose proof N' as (S' & Wo' & Hb').
  split; [congruence|]. split; [exact Wo'|]. exists (tmin t + tmax t - m). split.
  - split.
    + exists x0, y0, z0. apply Hb. exact P0.
    + intros x y z v P. destruct (neg_back t a b _ _ _ _ W N P) as (u & Pu & ->). specialize (M _ _ _ _ Pu). lia.
  - intros x y z v o Pv Po. destruct (neg_back t out out' x y z o Wo N' Po) as (o' & Po' & ->). destruct (neg_back t a b x y z v W N Pv) as (u & Pu & ->). destruct (H x y z _ o' Pu Po') as (A & B & C).
    split; [lia|]. split.
    + destruct B as [-> |B]; [auto|right]. eapply zone_has_mono; [|exact B]. intros p q r. apply (lower_upper t se a b); assumption.
    + intros h Hh Z. apply (C (tmin t + tmax t - h) ltac:(lia)). eapply zone_has_mono; [|exact Z]. intros p q r Z'. apply (lower_upper t se a b); [exact W|exact N|].
      replace (tmin t + tmax t - (tmin t + tmax t - h)) with h by lia. exact Z'.
Qed.

Lemma closed_extensive k n se im out : attr_closed k n se im out -> img_le im out.
Proof. intros (_ & _ & m & _ & H) x y z u v Hu Hv. destruct (H x y z u v Hu Hv) as (A & _). lia. Qed.

(** Any type will do to take negatives of images of unbounded values. *)
Definition flip (im : img) : img := pw1 (fun v => tmin INT8 + tmax INT8 - v) im.
Lemma flip_negative im : wf_img im -> negative INT8 im (flip im).
Proof. intros W. destruct (pw1_spec (fun v => tmin INT8 + tmax INT8 - v) im W) as (S & W' & H). split; [exact S|]. split; [exact W'|]. exact H. Qed.

Lemma closed_flip k n se im out : wf_img im -> attr_closed k n se im out -> attr_opened k n se (flip im) (flip out).
Proof. intros W H. pose proof H as (_ & Wo & _). apply (opened_closed INT8 k n se im _ out); try assumption; apply flip_negative; assumption. Qed.
Lemma flip_le a b : wf_img a -> wf_img b -> (img_le a b <-> img_le (flip b) (flip a)).
Proof.
  intros Wa Wb. split; intros L x y z u v Pu Pv.
  - destruct (neg_back INT8 b _ x y z u Wb (flip_negative b Wb) Pu) as (u' & Pu' & ->). destruct (neg_back INT8 a _ x y z v Wa (flip_negative a Wa) Pv) as (v' & Pv' & ->). specialize (L _ _ _ _ _ Pv' Pu'). lia.
  - destruct (flip_negative a Wa) as (_ & _ & Ha). destruct (flip_negative b Wb) as (_ & _ & Hb). specialize (L _ _ _ _ _ (Hb _ _ _ _ Pv) (Ha _ _ _ _ Pu)). lia.
Qed.
Lemma flip_inj a b : wf_img a -> wf_img b -> flip a = flip b -> a = b.
Proof.
  intros Wa Wb E. destruct (flip_negative a Wa) as (Sa & _ & Ha). destruct (flip_negative b Wb) as (Sb & _ & Hb). apply img_ext; [exact Wa|exact Wb|congruence|].
  intros x y z u Pu. pose proof (Ha _ _ _ _ Pu) as P. rewrite E in P. destruct (neg_back INT8 b _ x y z _ Wb (flip_negative b Wb) P) as (v & Pv & Ev). assert (v = u) as -> by lia. exact Pv.
Qed.

Lemma closed_increasing k n se im im' out out' : wf_img im -> wf_img im' -> sz im' = sz im -> img_le im im' ->
  attr_closed k n se im out -> attr_closed k n se im' out' -> img_le out out'.
Proof.
  intros W W' Es L H H'. apply flip_le; [apply H|apply H'|]. apply (opened_increasing k n se (flip im') (flip im)).
  - apply (flip_negative im' W').
  - apply (flip_negative im W).
  - cbn. congruence.
  - apply (proj1 (flip_le im im' W W')). exact L.
  - apply closed_flip; assumption.
  - apply closed_flip; assumption.
Qed.
Lemma closed_unique k n se im out out' : wf_img im -> attr_closed k n se im out -> attr_closed k n se im out' -> out = out'.
Proof.
  intros W H H'. apply flip_inj; [apply H|apply H'|]. apply (opened_unique k n se (flip im)); [apply (flip_negative im W)|apply closed_flip; assumption|apply closed_flip; assumption].
Qed.
Lemma closed_idempotent k n se im out out2 : wf_img im -> planar se (sz im) -> symmetric_se se ->
  attr_closed k n se im out -> attr_closed k n se out out2 -> out2 = out.
Proof.
  intros W HP Hsy H H2. apply flip_inj; [apply H2|apply H|]. apply (opened_idempotent k n se (flip im)); [apply (flip_negative im W)|exact HP|exact Hsy|apply closed_flip; assumption|apply closed_flip; [apply H|exact H2]].
Qed.
Lemma closed_sizes k n n' se im out out' : wf_img im -> n <= n' -> attr_closed k n se im out -> attr_closed k n' se im out' -> img_le out out'.
Proof.
  intros W Hn H H'. apply flip_le; [apply H|apply H'|]. apply (opened_sizes k n n' se (flip im)); [apply (flip_negative im W)|exact Hn|apply closed_flip; assumption|apply closed_flip; assumption].
Qed.

(** ** Elements that connect the image *)
Definition unit_steps (se : strelt) (s : dims) : Prop :=
  forall x y z, sees se x y z (x + 1) y z /\ sees se x y z (x - 1) y z /\ sees se x y z x (y + 1) z /\ sees se x y z x (y - 1) z /\
    (dd s = 1 \/ (sees se x y z x y (z + 1) /\ sees se x y z x y (z - 1))).

Lemma line_reach (P : Z -> Prop) n i j : 0 <= i < n -> 0 <= j < n -> P i -> (forall k, 0 <= k -> k + 1 < n -> P k -> P (k + 1)) ->
  (forall k, 0 <= k -> k + 1 < n -> P (k + 1) -> P k) -> P j.
Proof.
  intros Hi Hj Pi Up Dn. assert (Go : forall d : nat, (forall j, 0 <= j < n -> j = i + Z.of_nat d -> P j) /\ (forall j, 0 <= j < n -> j = i - Z.of_nat d -> P j)).
  { induction d as [|d (IU & ID)]; [split; intros j0 _ ->; [replace (i + Z.of_nat 0) with i by lia|replace (i - Z.of_nat 0) with i by lia]; exact Pi|]. split; intros j0 R E.
    - replace j0 with ((j0 - 1) + 1) by lia. apply Up; [lia|lia|apply IU; lia].
    - apply Dn; [lia|lia|apply ID; lia]. }
  destruct (Z_le_dec i j).
  - apply (proj1 (Go (Z.to_nat (j - i)))); lia.
  - apply (proj2 (Go (Z.to_nat (i - j)))); lia.
Qed.

Lemma steps_connect se im : wf_img im -> unit_steps se (sz im) -> connecting se im.
Proof.
  intros W U x y z x' y' z' I I'.
  set (J := joined se (fun _ => True) (fun a b c => a = x /\ b = y /\ c = z) im).
  assert (St : forall a b c a' b' c', J a' b' c' -> sees se a b c a' b' c' -> inside (sz im) a b c -> J a b c).
  { intros a b c a' b' c' H S Ia. destruct (pixel_exists im a b c W Ia) as (v & P). eapply joined_step; [exact H|exact S|exact P|exact Logic.I]. }
  assert (J x y z) as J0. { destruct (pixel_exists im x y z W I) as (v & P). eapply joined_seed; [auto|exact P|exact Logic.I]. }
  unfold inside in I, I'.
  assert (J x' y z) as J1.
  { apply (line_reach (fun k => J k y z) (dw (sz im)) x x'); [lia|lia|exact J0| |]; intros k K1 K2 H; eapply St; try exact H; try (unfold inside; lia).
    - destruct (U (k + 1) y z) as (_ & S & _). replace (k + 1 - 1) with k in S by lia. exact S.
    - apply (U k y z). }
  assert (J x' y' z) as J2.
  { apply (line_reach (fun k => J x' k z) (dh (sz im)) y y'); [lia|lia|exact J1| |]; intros k K1 K2 H; eapply St; try exact H; try (unfold inside; lia).
    - destruct (U x' (k + 1) z) as (_ & _ & _ & S & _). replace (k + 1 - 1) with k in S by lia. exact S.
    - apply (U x' k z). }
  destruct (Z.eq_dec (dd (sz im)) 1) as [D|D]; [replace z' with z by lia; exact J2|].
  apply (line_reach (fun k => J x' y' k) (dd (sz im)) z z'); [lia|lia|exact J2| |]; intros k K1 K2 H; eapply St; try exact H; try (unfold inside; lia).
  - destruct (U x' y' (k + 1)) as (_ & _ & _ & _ & [S|(_ & S)]); [contradiction|]. replace (k + 1 - 1) with k in S by lia. exact S.
  - destruct (U x' y' k) as (_ & _ & _ & _ & [S|(S & _)]); [contradiction|exact S].
Qed.
