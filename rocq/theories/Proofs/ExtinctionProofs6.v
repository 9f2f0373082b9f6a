(** Extinction values of the regional minima. *)
From Coq Require Import Permutation.
From Verif Require Export Proofs.ExtinctionProofs5.

Local Notation "l # i" := (znth 0 l i) (at level 9).

(** The place of an offset. *)
Definition spot (s : dims) (k : Z) : Z * Z * Z := (k mod dw s, k / dw s mod dh s, k / dw s / dh s).
Lemma spot_off s x y z : inside s x y z -> spot s (voxel_offset (dw s) (dh s) x y z) = (x, y, z).
Proof.
  intros I. unfold spot. unfold inside in I. replace (voxel_offset (dw s) (dh s) x y z) with (x + (y + z * dh s) * dw s) by (unfold voxel_offset; ring).
  rewrite Z.mod_add, Z.mod_small, Z.div_add, (Z.div_small x) by lia. cbn [Z.add]. rewrite Z.mod_add, Z.mod_small, Z.div_add, (Z.div_small y) by lia. reflexivity.
Qed.

Lemma Zsum_perm l l' : Permutation l l' -> Zsum l = Zsum l'.
Proof. intros H. induction H; rewrite ?Zsum_cons; lia. Qed.
Lemma Zsum_map_shift {A} (f : A -> Z) l : Zsum (map (fun x => f x + 1) l) = Zsum (map f l) + Z.of_nat (length l).
Proof. induction l as [|a l IH]; [reflexivity|]. cbn [map length]. rewrite !Zsum_cons, IH. lia. Qed.
Lemma Zsum_fold l : Zsum l = fold_right Z.add 0 l.
Proof. induction l as [|a l IH]; [reflexivity|]. rewrite Zsum_cons, IH. reflexivity. Qed.

Section Minima.
Context (t t2 : ity) (se : strelt) (im markers : img).
Notation s := (sz im).
Notation px := (pixs im).
Notation m := (pixs markers).
Notation n := (top_label t2 markers).
Notation N := (dw s * dh s * dd s).
Notation off := (voxel_offset (dw s) (dh s)).
Context (F : flood_ok t t2 se im markers) (T0 : tmin t2 = 0) (Hlt : forall x y z l, pixel_is markers x y z l -> l < tmax t2).
Context (Hex : exists x y z, in_marker markers x y z) (Hy : symmetric_se se) (Lz : labels_zones se (is_min t se im) im markers).

Lemma at_off p : 0 <= p < N -> exists x y z, inside s x y z /\ p = off x y z /\ pixel_is im x y z px # p /\ pixel_is markers x y z m # p.
Proof.
  intros Hp. pose proof F as (Ht & Wi & Wm & Sm & Ti & Tm & Hs & _). destruct (voxel_exists s p (int_small _ Hs) Hp) as (x & y & z & I & ->). exists x, y, z. split; [exact I|]. split; [reflexivity|].
  split; [exact (px_at s im x y z eq_refl Wi I)|exact (px_at s markers x y z Sm Wm I)].
Qed.
Lemma ways : two_way se s.
Proof. apply two_way_sym; [exact Hy|apply F]. Qed.

Lemma zone_walk h x y z x' y' z' : lower_zone se im h x y z x' y' z' -> walk se im h (off x y z) (off x' y' z').
Proof.
  intros J. induction J as [a b c v (-> & -> & ->) P Hv|a b c a' b' c' v J IH S P Hv].
  - destruct (px_val s im _ _ _ _ eq_refl P) as (I & Rg & E). apply walk0; [exact Rg|lia].
  - destruct (px_val s im _ _ _ _ eq_refl P) as (I & Rg & E). assert (I' : inside s a' b' c') by (inversion J as [? ? ? ? _ (I' & _) _|? ? ? ? ? ? ? _ _ (I' & _) _]; exact I').
    eapply walk_step; [exact IH|apply sees_covers; assumption|lia].
Qed.
Lemma walk_zone h p q : walk se im h p q -> forall x y z x' y' z', inside s x y z -> inside s x' y' z' -> p = off x y z -> q = off x' y' z' -> lower_zone se im h x y z x' y' z'.
Proof.
  pose proof F as (_ & Wi & _). intros Wk. induction Wk as [Hp Hv|q r Wk IH Cv Hv]; intros x y z x' y' z' I I' Ep Eq.
  - subst p. destruct (LoopFacts.voxel_inj s _ _ _ _ _ _ I I' Eq) as (-> & -> & ->). eapply joined_seed; [auto|exact (px_at s im _ _ _ eq_refl Wi I)|exact Hv].
  - subst r. pose proof Cv as (a & b & c & a' & b' & c' & J & J' & Ea & Eb & S). destruct (LoopFacts.voxel_inj s _ _ _ _ _ _ I' J Ea) as (-> & -> & ->).
    eapply joined_step; [exact (IH _ _ _ _ _ _ I J' Ep Eb)|exact S|exact (px_at s im _ _ _ eq_refl Wi J)|exact Hv].
Qed.

(** ** The markers are the minima *)
Lemma mark_min x y z v o : pixel_is im x y z v -> pixel_is markers x y z o -> (o <> 0 <-> is_min t se im x y z v).
Proof. destruct Lz as (_ & _ & H & _). apply H. Qed.

Lemma flat_walk x y z v : pixel_is im x y z v -> forall x' y' z', linked se eq im x y z x' y' z' -> pixel_is im x' y' z' v /\ walk se im v (off x y z) (off x' y' z').
Proof.
  intros P x' y' z' H. induction H as [v' P'|a b c u a' b' c' v' H (P1 & Wk) Pu Pv S E].
  - split; [exact P|]. destruct (px_val s im _ _ _ _ eq_refl P) as (I & Rg & E). apply walk0; [exact Rg|lia].
  - subst u. rewrite (LoopFacts.pixel_is_fun _ _ _ _ _ _ Pu P1) in *. split; [exact Pv|]. destruct (px_val s im _ _ _ _ eq_refl Pv) as (I & Rg & E). destruct (px_val s im _ _ _ _ eq_refl P1) as (I1 & _).
    eapply walk_step; [exact Wk|apply sees_covers; assumption|lia].
Qed.

Lemma M1 p q : 0 <= p < N -> 0 <= q < N -> m # p <> 0 -> m # p = m # q -> walk se im px # p p q /\ px # p = px # q.
Proof.
  intros Hp Hq Hm E. destruct (at_off p Hp) as (x & y & z & I & Ep & P & Pm). destruct (at_off q Hq) as (x' & y' & z' & I' & Eq & P' & Pm').
  pose proof (proj1 (mark_min _ _ _ _ _ P Pm) Hm) as K. pose proof (proj1 (mark_min _ _ _ _ _ P' Pm') ltac:(congruence)) as K'. destruct Lz as (_ & _ & _ & H).
  pose proof (proj1 (H _ _ _ _ _ _ _ _ _ _ P P' K K' Pm Pm') E) as Lk. destruct (flat_walk _ _ _ _ P _ _ _ Lk) as (P2 & Wk). pose proof (LoopFacts.pixel_is_fun _ _ _ _ _ _ P' P2) as Ev. split; [rewrite Ep at 2; rewrite Eq; exact Wk|congruence].
Qed.

Lemma M2 p q : 0 <= p < N -> m # p <> 0 -> covers se s q p -> m # q = m # p \/ px # p < px # q.
Proof.
  intros Hp Hm Cv. destruct (Z.lt_trichotomy px # p px # q) as [H|[H|H]]; [right; exact H| |].
  - left. destruct (covers_range _ _ _ _ Cv) as (Hq & _). destruct (at_off p Hp) as (x & y & z & I & Ep & P & Pm). destruct (at_off q Hq) as (x' & y' & z' & I' & Eq & P' & Pm').
    assert (S : sees se x' y' z' x y z) by (apply (sees_covers se s); [assumption|assumption|congruence]). pose proof (proj1 (mark_min _ _ _ _ _ P Pm) Hm) as K. rewrite <- H in P'.
    pose proof (min_plateau t se im Hy ltac:(apply F) _ _ _ _ _ _ _ P P' S K) as K'. destruct Lz as (_ & _ & _ & HL). symmetry. apply (HL _ _ _ _ _ _ _ _ _ _ P P' K K' Pm Pm').
    eapply linked_next; [econstructor; exact P|exact P|exact P'|exact S|reflexivity].
  - exfalso. destruct (covers_range _ _ _ _ Cv) as (Hq & _). destruct (at_off p Hp) as (x & y & z & I & Ep & P & Pm). destruct (at_off q Hq) as (x' & y' & z' & I' & Eq & P' & Pm').
    assert (S : sees se x y z x' y' z') by (apply (sees_covers se s); [assumption|assumption|rewrite <- Ep, <- Eq; apply ways; exact Cv]). destruct (proj1 (mark_min _ _ _ _ _ P Pm) Hm) as (_ & K). apply K.
    eapply joined_step; [|exact S|exact P|lia]. eapply joined_seed; [exists (px # q); split; [exact P'|exact H]|exact P'|lia].
Qed.

Lemma descend_walk x y z v : can_descend se im x y z v -> exists q, 0 <= q < N /\ px # q < v /\ walk se im v q (off x y z).
Proof.
  intros J. induction J as [a b c u (w & Pw & Hw) P Hu|a b c a' b' c' u J IH S P Hu].
  - destruct (px_val s im _ _ _ _ eq_refl Pw) as (I & Rg & E). exists (off a b c). split; [exact Rg|]. split; [lia|]. apply walk0; [exact Rg|lia].
  - destruct IH as (q & Hq & Hlt' & Wk). exists q. split; [exact Hq|]. split; [exact Hlt'|]. destruct (px_val s im _ _ _ _ eq_refl P) as (I & Rg & E).
    assert (I' : inside s a' b' c') by (inversion J as [? ? ? ? _ (I' & _) _|? ? ? ? ? ? ? _ _ (I' & _) _]; exact I'). eapply walk_step; [exact Wk|apply sees_covers; assumption|lia].
Qed.

Lemma M3 p : 0 <= p < N -> px # p < tmax t -> ~ ~ exists d, m # d <> 0 /\ walk se im px # p d p.
Proof.
  assert (Nn : forall p, 0 <= p < N -> 0 <= px # p). { pose proof F as (Ht & Wi & _ & _ & Ti & _). pose proof Wi as (_ & Li). unfold pixelCount in Li. intros q Hq. pose proof (typed_at t px q Ti ltac:(lia)) as Iy. unfold inty in Iy. destruct Ht as [->| ->]; cbn in Iy; lia. }
  assert (K : forall v, 0 <= v -> forall p, 0 <= p < N -> px # p = v -> v < tmax t -> ~ ~ exists d, m # d <> 0 /\ walk se im v d p); [|intros Hp Hv; apply K; auto].
  intros v Hv. pattern v. apply Zlt_0_ind; [|exact Hv]. clear v Hv p. intros v IH Hv p Hp Ev Hb No. destruct (at_off p Hp) as (x & y & z & I & Ep & P & Pm).
  assert (Nd : ~ can_descend se im x y z v).
  { intros J. destruct (descend_walk _ _ _ _ J) as (q & Hq & Hlt' & Wk). rewrite <- Ep in Wk. apply (IH px # q ltac:(specialize (Nn q Hq); lia) q Hq eq_refl ltac:(lia)). intros (d & Hd & Wd). apply No. exists d. split; [exact Hd|]. eapply walk_trans; [eapply (walk_mono t2 se im markers Hlt); [|exact Wd]; lia|exact Wk]. }
  rewrite Ev in P. apply No. exists p. split; [apply (mark_min _ _ _ _ _ P Pm); split; assumption|]. apply walk0; [exact Hp|lia].
Qed.

(** ** The end of the flooding *)
Context (Co : connecting se im).
Lemma all_walk (Pr : Z -> Prop) : (exists p, 0 <= p < N /\ Pr p) -> (forall p q, Pr p -> covers se s q p -> Pr q) -> forall q, 0 <= q < N -> Pr q.
Proof.
  intros (p & Hp & H) Hst q Hq. destruct (at_off p Hp) as (x & y & z & I & Ep & P & _). destruct (at_off q Hq) as (x' & y' & z' & I' & Eq & _). rewrite Eq. pose proof (Co _ _ _ _ _ _ I I') as J. clear Eq Hq I'.
  induction J as [a b c v (-> & -> & ->) Pv _|a b c a' b' c' v J IH S Pv _]; [rewrite <- Ep; exact H|]. apply (Hst _ _ IH). destruct Pv as (Ia & _).
  assert (I' : inside s a' b' c') by (inversion J as [? ? ? ? _ (I' & _) _|? ? ? ? ? ? ? _ _ (I' & _) _]; exact I'). apply sees_covers; assumption.
Qed.

Lemma minima_run k te fuel g : turns fuel im markers ->
  let g0 := match g with None => None | Some g => Some (clear g) end in
  exists lbl q b' g' l0 M, ext_process fuel k t t2 te se im markers g0 = Some (Some (lbl, b', g')) /\
    (exists q0, flood_init t px m = Some q0 /\ flood_loop fuel t se s px (FL m q0) = Some (Some (FL lbl q))) /\ length (bd_ext b') = Z.to_nat (n + 1) /\
    (exists p, 0 <= p < N /\ px # p = M) /\ (forall p, 0 <= p < N -> px # p <= M) /\
    l0 <> 0 /\ (exists d, 0 <= d < N /\ m # d = l0) /\
    (forall d, 0 <= d < N -> m # d <> 0 -> m # d <> l0 -> zQ k t te se im markers m # d (bd_ext b') # (m # d)) /\
    match k with
    | ByDynamic => forall d, 0 <= d < N -> m # d = l0 -> (bd_ext b') # l0 = wrap te (M - px # d) /\ forall p, 0 <= p < N -> px # d <= px # p
    | ByArea => (bd_ext b') # l0 = wrap te N
    | ByVolume => (bd_ext b') # l0 = wrap te (Zsum (map (fun v => M - v + 1) px) mod 2 ^ 32)
    end.
Proof.
  intros Hf g0. pose proof F as (Ht & Wi & Wm & Sm & Ti & Tm & Hs & Hw & Hp & HP). assert (Hsm : int_sized (sz markers)) by (rewrite Sm; exact Hs). pose proof Wi as (_ & Li). pose proof Wm as (_ & Lm). rewrite Sm in Lm. unfold pixelCount in *.
  destruct (zone_run k t t2 te se im markers F T0 Hlt ways M1 M2 M3 fuel g (proj1 Hf) (turns_top _ _ _ _ Wm Hsm Tm T0 Hlt Hf) (top_nonzero _ _ Wm Hsm Tm T0 Hlt Hex)) as (lbl & q & D & L & b & g' & stat & last & b' & E & E2 & IV & Hla & Le & Vb).
  pose proof (l_b _ _ _ _ _ _ _ _ _ _ _ _ _ _ _ _ _ _ _ IV) as BV. pose proof (l_x _ _ _ _ _ _ _ _ _ _ _ _ _ _ _ _ _ _ _ IV) as X. pose proof (l_D _ _ _ _ _ _ _ _ _ _ _ _ _ _ _ _ _ _ _ IV) as HD. pose proof (l_lbl _ _ _ _ _ _ _ _ _ _ _ _ _ _ _ _ _ _ _ IV) as Hlb.
  pose proof (l_dok _ _ _ _ _ _ _ _ _ _ _ _ _ _ _ _ _ _ _ IV) as Dk. pose proof (l_src _ _ _ _ _ _ _ _ _ _ _ _ _ _ _ _ _ _ _ IV) as Src. pose proof (l_max _ _ _ _ _ _ _ _ _ _ _ _ _ _ _ _ _ _ _ IV) as Mx.
  set (r0 := (bd_equ b) # (lbl # last)) in *.
  assert (All : forall p, 0 <= p < N -> In p D /\ (bd_equ b) # (lbl # p) = r0).
  { apply all_walk.
    - exists last. destruct (proj1 (HD last) Hla) as (Rl & _). split; [exact Rl|]. split; [exact Hla|reflexivity].
    - intros p p' (Hi & Ec) Cv. destruct (proj1 (HD p) Hi) as (Rp & Lp & _). destruct (covers_range _ _ _ _ Cv) as (Rp' & _).
      assert (Hi' : In p' D) by (apply HD; split; [exact Rp'|]; split; [exact (b_done _ _ _ _ _ _ _ _ _ BV p p' Rp Lp ltac:(intros []) Cv)|intros []]). split; [exact Hi'|].
      rewrite <- Ec. apply (x_adj _ _ _ _ _ _ _ _ _ _ _ _ _ X ways p' p Hi' Hi). apply ways. exact Cv. }
  assert (Hll : 1 <= lbl # last <= n) by (apply (d_in _ _ _ _ _ _ Dk last Hla)).
  assert (Hr0 : is_root n b r0). { split; [pose proof (x_pos _ _ _ _ _ _ _ _ _ _ _ _ _ X _ Hll); pose proof (x_rng _ _ _ _ _ _ _ _ _ _ _ _ _ X (lbl # last) ltac:(lia)); unfold r0; lia|apply (x_idem _ _ _ _ _ _ _ _ _ _ _ _ _ X); lia]. }
  assert (Lab : forall d, 0 <= d < N -> m # d <> 0 -> 1 <= m # d <= n /\ (bd_equ b) # (m # d) = r0).
  { intros d Hd Hm. destruct (All d Hd) as (_ & Ec). pose proof (b_mark _ _ _ _ _ _ _ _ _ BV d Hd Hm) as El. rewrite El in Ec. specialize (Hlb d Hd). split; [lia|exact Ec]. }
  assert (Top : (exists p, 0 <= p < N /\ px # p = L) /\ forall p, 0 <= p < N -> px # p <= L).
  { assert (A : forall p, 0 <= p < N -> px # p <= L) by (intros p Hp0; apply (d_in _ _ _ _ _ _ Dk p); apply All; exact Hp0). split; [|exact A]. destruct Mx as [Mx|(p & Hi & Mx)]; [|exists p; split; [apply HD; exact Hi|exact Mx]].
    destruct (proj1 (HD last) Hla) as (Rl & _). exists last. split; [exact Rl|]. specialize (A last Rl). pose proof (typed_at t px last Ti ltac:(lia)) as Iy. unfold inty in Iy. lia. }
  assert (Mem : forall p, 0 <= p < N -> In p (members (fun p => lbl # p) (bd_equ b) D r0)) by (intros p Hp0; apply members_In; apply All; exact Hp0).
  assert (Pm : Permutation (members (fun p => lbl # p) (bd_equ b) D r0) (zseq N)).
  { apply NoDup_Permutation; [apply NoDup_filter; apply (d_nd _ _ _ _ _ _ Dk)|apply zseq_NoDup|]. intros p. rewrite zseq_In. split; [intros Hi; apply members_In in Hi as (Hi & _); apply HD; exact Hi|apply Mem]. }
  assert (Ar : (bd_areas b) # r0 = N). { rewrite (x_area _ _ _ _ _ _ _ _ _ _ _ _ _ X r0 Hr0), tot_count, (Permutation_length Pm), zseq_length. lia. }
  pose proof (x_root _ _ _ _ _ _ _ _ _ _ _ _ _ X r0 Hr0) as Ex0.
  assert (Hmk : exists d, 0 <= d < N /\ m # d = r0).
  { destruct (proj1 (HD last) Hla) as (Rl & Ll & _). assert (Hsrc : exists d, In d D /\ m # d = lbl # last). { destruct (Src last Rl Ll) as [H|H]; [|exact H]. exists last. split; [exact Hla|]. symmetry. apply (b_mark _ _ _ _ _ _ _ _ _ BV last Rl H). }
    destruct (Z.eq_dec r0 (lbl # last)) as [Er|Er].
    - destruct Hsrc as (d & Hd & Ed). exists d. split; [apply HD; exact Hd|congruence].
    - destruct (x_eaten _ _ _ _ _ _ _ _ _ _ _ _ _ X (lbl # last) Hll ltac:(fold r0; exact Er)) as (_ & (d & Hd & Rd & Ed & _)). exists d. split; [exact Rd|exact Ed]. }
  exists lbl, q, b', g', r0, L. split; [exact E|]. split; [exact E2|]. split; [exact Le|]. split; [apply Top|]. split; [apply Top|]. split; [destruct Hr0; lia|]. split; [exact Hmk|]. split.
  - intros d Hd Hm Hne. destruct (Lab d Hd Hm) as (Hr & Ec). rewrite Vb. unfold put. replace (m # d =? r0) with false by lia. apply (x_eaten _ _ _ _ _ _ _ _ _ _ _ _ _ X (m # d) Hr). congruence.
  - assert (V0 : (bd_ext b') # r0 = last_value k te L b r0) by (rewrite Vb; unfold put; rewrite Z.eqb_refl; reflexivity). unfold last_value in V0. rewrite Ex0, Ar in V0. destruct k eqn:Ek.
    + rewrite V0. destruct (x_vol _ _ _ _ _ _ _ _ _ _ _ _ _ X eq_refl r0 Hr0) as (Vv & _). rewrite Vv. cbn [Z.add]. f_equal. change (wrap UINT32 ?x) with (x mod 2 ^ 32). rewrite Zplus_mod_idemp_l. f_equal.
      rewrite (Zsum_map_shift (fun v => L - v)). unfold tot. rewrite (Zsum_perm _ _ (Permutation_map (fun p => L - px # p) Pm)).
      replace (map (fun p => L - px # p) (zseq N)) with (map (fun v => L - v) (map (fun p => px # p) (zseq N))) by (rewrite map_map; reflexivity). replace (map (fun p => px # p) (zseq N)) with px; [lia|]. rewrite <- Li. symmetry. apply map_znth_zseq.
    + exact V0.
    + intros d Hd Ed. rewrite <- Ek in X.
      assert (Lo : (bd_min b) # r0 = px # d) by (apply (class_low k t t2 te se im markers F Hlt M1 M2 M3 L lbl q [] D L b BV HD Dk ltac:(intros p B; apply All; clear -B; induction B as [p Hp0|p nb' B IH Cv]; [exact Hp0|apply (covers_range _ _ _ _ Cv)]) X r0 d Ek); [apply All; exact Hd|exact Ed|exact Hr0]).
      rewrite V0, Lo. split; [reflexivity|]. intros p Hp0. rewrite <- Lo, (x_min _ _ _ _ _ _ _ _ _ _ _ _ _ X Ek r0 Hr0). apply lowest_le. apply Mem. exact Hp0.
Qed.
End Minima.
