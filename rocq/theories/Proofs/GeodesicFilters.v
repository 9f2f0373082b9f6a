(** buildOpen is an opening, buildClose a closing. *)
From Verif Require Export Proofs.GeodesicUses.

Lemma sees_points se se' x y z x' y' z' : se_odd se = se_odd se' -> (forall p, In p (se_points se) -> In p (se_points se')) -> sees se x y z x' y' z' -> sees se' x y z x' y' z'.
Proof. intros E H (p & Hp & A & B & C). exists p. rewrite <- E. auto. Qed.

Lemma sees_sym se s x y z x' y' z' : symmetric_se se -> planar se s -> inside s x y z -> inside s x' y' z' -> (sees se x y z x' y' z' <-> sees se x' y' z' x y z).
Proof.
  intros Hs HP Hi Hi'. rewrite <- (sees_transpose se x y z x' y' z' (planar_z se s z HP (proj2 (proj2 Hi)))).
  split; apply sees_points; auto; intros p; apply Hs.
Qed.

Lemma flows_points lim se se' s marker mask x y z v : sz mask = s -> (forall x y z x' y' z', inside s x y z -> inside s x' y' z' -> sees se x y z x' y' z' -> sees se' x y z x' y' z') ->
  flows lim se marker mask x y z v -> flows lim se' marker mask x y z v.
Proof.
  intros <- Hs H. induction H as [x y z a b Ha Hb|x y z x' y' z' v b Hf IH Hse Hb]; [constructor; assumption|].
  eapply flow_step; [exact IH| |exact Hb]. apply Hs; [apply Hb|eapply flows_inside; exact Hf|exact Hse].
Qed.

Lemma dual_rebuilt_sym se marker mask R : symmetric_se se -> planar se (sz mask) -> dual_rebuilt (transpose se) marker mask R -> dual_rebuilt se marker mask R.
Proof.
  intros Hs HP (S & W & H). split; [exact S|]. split; [exact W|]. intros x y z v Hv. destruct (H _ _ _ _ Hv) as (A & B).
  assert (K : forall x y z x' y' z', inside (sz mask) x y z -> inside (sz mask) x' y' z' -> (sees (transpose se) x y z x' y' z' <-> sees se x y z x' y' z')).
  { intros. rewrite <- (sees_tr se (sz mask) HP) by assumption. apply (sees_sym se (sz mask)); assumption. }
  split; [|intros u Hu; apply B]; (eapply flows_points; [reflexivity| |eassumption]); intros; apply K; assumption.
Qed.

Section Open.
Context (t : ity) (se : strelt) (s : dims) (im R : img).
Context (Ho : In (0, 0, 0) (se_points se)) (HP : planar se s).
Context (W : wf_img im) (Es : sz im = s) (T : typed_img t im).
Context (n : nat).
Notation d := (can1 px_sup (tmin t) s se).
Notation e := (can1 px_inf (tmax t) s (transpose se)).

Lemma pxv_typed : typedf t s (pxv im).
Proof. rewrite <- Es. apply typed_pxv; assumption. Qed.

Lemma iter_split {A} (f : A -> A) i j a : Nat.iter (i + j) f a = Nat.iter i f (Nat.iter j f a).
Proof. induction i as [|i IH]; [reflexivity|]. change (f (Nat.iter (i + j) f a) = f (Nat.iter i f (Nat.iter j f a))). rewrite IH. reflexivity. Qed.

Lemma DiEn i : (i <= n)%nat -> leq s (Nat.iter i d (Nat.iter n e (pxv im))) (pxv im).
Proof.
  intros Hi. replace n with (i + (n - i))%nat by lia. rewrite iter_split.
  pose proof (en_typed t s se (origin_ne se Ho) (n - i) _ pxv_typed) as K.
  eapply leq_trans; [apply (DE_below t s se (origin_ne se Ho) HP i); exact K|].
  intros x y z Hin. apply (en_self t se s Ho HP); [apply pxv_typed|exact Hin].
Qed.
Lemma EiDn i : (i <= n)%nat -> leq s (pxv im) (Nat.iter i e (Nat.iter n d (pxv im))).
Proof.
  intros Hi. replace n with (i + (n - i))%nat by lia. rewrite iter_split.
  pose proof (dn_typed t s se (origin_ne se Ho) (n - i) _ pxv_typed) as K.
  eapply leq_trans; [|apply (ED_above t s se (origin_ne se Ho) HP i); exact K].
  intros x y z Hin. apply (dn_self t se s Ho); [apply pxv_typed|exact Hin].
Qed.

Lemma open_below_rebuilt : rebuilt se (mk_img s (Nat.iter n e (pxv im))) im R -> leq s (Nat.iter n d (Nat.iter n e (pxv im))) (pxv R).
Proof.
  intros HB. pose proof HB as (SR & WR & H). pose proof (proj1 W) as Wd. rewrite Es in *.
  assert (TE : typedf t s (Nat.iter n e (pxv im))) by (apply en_typed; [apply origin_ne; exact Ho|apply pxv_typed]).
  assert (K : forall i, (i <= n)%nat -> leq s (Nat.iter i d (Nat.iter n e (pxv im))) (pxv R)); [|apply K; lia].
  induction i as [|i IH]; intros Hi x y z Hin.
  - destruct (pixel_exists R x y z WR) as (v & Hv); [rewrite SR; exact Hin|]. destruct (pixel_exists im x y z W) as (b & Hb); [rewrite Es; exact Hin|].
    rewrite (pxv_is _ _ _ _ _ Hv). pose proof (DiEn 0 ltac:(lia) x y z Hin) as K. cbn [Nat.iter nat_rect] in *. rewrite (pxv_is _ _ _ _ _ Hb) in K.
    destruct (rebuilt_between se _ _ _ x y z (Nat.iter n e (pxv im) x y z) b v HB) as (A & _); auto; [apply mk_img_is; auto|]. cbn [Nat.iter nat_rect] in *. lia.
  - destruct (d_at t se s Ho (Nat.iter i d (Nat.iter n e (pxv im))) x y z) as (x' & y' & z' & Hin' & Hs & E); [apply dn_typed; auto; apply origin_ne; exact Ho|exact Hin|].
    change (Nat.iter (S i) d (Nat.iter n e (pxv im)) x y z) with (d (Nat.iter i d (Nat.iter n e (pxv im))) x y z).
    pose proof (DiEn (S i) Hi x y z Hin) as Kf. change (Nat.iter (S i) d (Nat.iter n e (pxv im)) x y z) with (d (Nat.iter i d (Nat.iter n e (pxv im))) x y z) in Kf.
    specialize (IH ltac:(lia) x' y' z' Hin'). rewrite <- E in IH.
    destruct (pixel_exists R x y z WR) as (v & Hv); [rewrite SR; exact Hin|]. destruct (pixel_exists R x' y' z' WR) as (v' & Hv'); [rewrite SR; exact Hin'|].
    destruct (pixel_exists im x y z W) as (b & Hb); [rewrite Es; exact Hin|].
    rewrite (pxv_is _ _ _ _ _ Hb) in Kf. rewrite (pxv_is _ _ _ _ _ Hv') in IH. rewrite (pxv_is _ _ _ _ _ Hv).
    destruct (H _ _ _ _ Hv') as (F & _). destruct (H _ _ _ _ Hv) as (_ & B). specialize (B _ (flow_step _ _ _ _ _ _ _ _ _ _ _ _ F Hs Hb)). lia.
Qed.

Lemma rebuilt_own_mask marker : rebuilt se marker im R -> rebuilt se marker R R.
Proof.
  intros HB. pose proof HB as (SR & WR & H). split; [reflexivity|]. split; [exact WR|]. intros x y z v Hv. split.
  - assert (K : forall x y z u, flows Z.min se marker im x y z u -> flows Z.min se marker R x y z u).
    { intros x0 y0 z0 u F. induction F as [x0 y0 z0 a b Ha Hb|x0 y0 z0 x' y' z' u b Hf IH Hse Hb].
      - destruct (pixel_exists R x0 y0 z0 WR) as (r & Hr); [rewrite SR; apply Hb|]. pose proof (rebuilt_between se _ _ _ _ _ _ _ _ _ HB Ha Hb Hr).
        replace (Z.min a b) with (Z.min a r) by lia. constructor; assumption.
      - destruct (pixel_exists R x0 y0 z0 WR) as (r & Hr); [rewrite SR; apply Hb|]. destruct (H _ _ _ _ Hr) as (A & B).
        specialize (B _ (flow_step _ _ _ _ _ _ _ _ _ _ _ _ Hf Hse Hb)). pose proof (flows_le_mask _ _ _ _ _ _ _ _ A Hb).
        replace (Z.min u b) with (Z.min u r) by lia. eapply flow_step; eassumption. }
    apply K. apply (H _ _ _ _ Hv).
  - intros u Hu. eapply flows_le_mask; eassumption.
Qed.

Lemma close_above_rebuilt : symmetric_se se -> dual_rebuilt se (mk_img s (Nat.iter n d (pxv im))) im R -> leq s (pxv R) (Nat.iter n e (Nat.iter n d (pxv im))).
Proof.
  intros Hsym HB. pose proof HB as (SR & WR & H). pose proof (proj1 W) as Wd. rewrite Es in *.
  assert (TE : typedf t s (Nat.iter n d (pxv im))) by (apply dn_typed; [apply origin_ne; exact Ho|apply pxv_typed]).
  assert (K : forall i, (i <= n)%nat -> leq s (pxv R) (Nat.iter i e (Nat.iter n d (pxv im)))); [|apply K; lia].
  induction i as [|i IH]; intros Hi x y z Hin.
  - destruct (pixel_exists R x y z WR) as (v & Hv); [rewrite SR; exact Hin|]. destruct (pixel_exists im x y z W) as (b & Hb); [rewrite Es; exact Hin|].
    rewrite (pxv_is _ _ _ _ _ Hv). pose proof (EiDn 0 ltac:(lia) x y z Hin) as K. cbn [Nat.iter nat_rect] in *. rewrite (pxv_is _ _ _ _ _ Hb) in K.
    destruct (dual_rebuilt_between se _ _ _ x y z (Nat.iter n d (pxv im) x y z) b v HB) as (_ & A); auto; [apply mk_img_is; auto|]. cbn [Nat.iter nat_rect] in *. lia.
  - destruct (e_at t se s Ho HP (Nat.iter i e (Nat.iter n d (pxv im))) x y z) as (x' & y' & z' & Hin' & Hs & E); [apply en_typed; auto; apply origin_ne; exact Ho|exact Hin|].
    apply (sees_sym se s x' y' z' x y z Hsym HP Hin' Hin) in Hs.
    change (Nat.iter (S i) e (Nat.iter n d (pxv im)) x y z) with (e (Nat.iter i e (Nat.iter n d (pxv im))) x y z).
    pose proof (EiDn (S i) Hi x y z Hin) as Kf. change (Nat.iter (S i) e (Nat.iter n d (pxv im)) x y z) with (e (Nat.iter i e (Nat.iter n d (pxv im))) x y z) in Kf.
    specialize (IH ltac:(lia) x' y' z' Hin'). rewrite <- E in IH.
    destruct (pixel_exists R x y z WR) as (v & Hv); [rewrite SR; exact Hin|]. destruct (pixel_exists R x' y' z' WR) as (v' & Hv'); [rewrite SR; exact Hin'|].
    destruct (pixel_exists im x y z W) as (b & Hb); [rewrite Es; exact Hin|].
    rewrite (pxv_is _ _ _ _ _ Hb) in Kf. rewrite (pxv_is _ _ _ _ _ Hv') in IH. rewrite (pxv_is _ _ _ _ _ Hv).
    destruct (H _ _ _ _ Hv') as (F & _). destruct (H _ _ _ _ Hv) as (_ & B). specialize (B _ (flow_step _ _ _ _ _ _ _ _ _ _ _ _ F Hs Hb)). lia.
Qed.

Lemma dual_rebuilt_own_mask marker : dual_rebuilt se marker im R -> dual_rebuilt se marker R R.
Proof.
  intros HB. pose proof HB as (SR & WR & H). split; [reflexivity|]. split; [exact WR|]. intros x y z v Hv. split.
  - assert (K : forall x y z u, flows Z.max se marker im x y z u -> flows Z.max se marker R x y z u).
    { intros x0 y0 z0 u F. induction F as [x0 y0 z0 a b Ha Hb|x0 y0 z0 x' y' z' u b Hf IH Hse Hb].
      - destruct (pixel_exists R x0 y0 z0 WR) as (r & Hr); [rewrite SR; apply Hb|]. pose proof (dual_rebuilt_between se _ _ _ _ _ _ _ _ _ HB Ha Hb Hr).
        replace (Z.max a b) with (Z.max a r) by lia. constructor; assumption.
      - destruct (pixel_exists R x0 y0 z0 WR) as (r & Hr); [rewrite SR; apply Hb|]. destruct (H _ _ _ _ Hr) as (A & B).
        specialize (B _ (flow_step _ _ _ _ _ _ _ _ _ _ _ _ Hf Hse Hb)). pose proof (flows_ge_mask _ _ _ _ _ _ _ _ A Hb).
        replace (Z.max u b) with (Z.max u r) by lia. eapply flow_step; eassumption. }
    apply K. apply (H _ _ _ _ Hv).
  - intros u Hu. eapply flows_ge_mask; eassumption.
Qed.
End Open.

(** ** At the level of the calls *)
Definition open_call (t : ity) (junk : Z -> Z) (cs : nat -> conf) (se : strelt) (im out : img) : Prop :=
  geo1_ok t se im out /\ call_ok cs false im (new_img junk im) /\ good_se se (sz im).

Lemma buildOpen_val fuel t junk cs se im out r R : open_call t junk cs se im out -> enough im fuel -> buildOpen fuel t junk cs se false im out = Some (Some (r, R)) ->
  r = 1 /\ wf_img R /\ sz R = sz im /\ typed_img t R /\ rebuilt se (mk_img (sz im) (En t (sz im) se (pxv im))) im R.
Proof.
  intros (G & C & HG) Hf HB. destruct (buildOpen_ok fuel t junk cs se im out G C HG Hf) as (E & R0 & HE & H & HR & TR). rewrite H in HB. injection HB as <- <-.
  apply (erode_val t junk cs se false im (new_img junk im) _ C HG) in HE. injection HE as ->. pose proof HR as (S & W & _). auto.
Qed.
Lemma buildClose_val fuel t junk cs se im out r R : open_call t junk cs se im out -> enough im fuel -> buildClose fuel t junk cs se false im out = Some (Some (r, R)) ->
  r = 1 /\ wf_img R /\ sz R = sz im /\ typed_img t R /\ dual_rebuilt se (mk_img (sz im) (Dn t (sz im) se (pxv im))) im R.
Proof.
  intros (G & C & HG) Hf HB. destruct (buildClose_ok fuel t junk cs se im out G C HG Hf) as (E & R0 & HE & H & HR & TR). rewrite H in HB. injection HB as <- <-.
  apply (dilate_val t junk cs se false im (new_img junk im) _ C HG) in HE. injection HE as ->. pose proof HR as (S & W & _). auto.
Qed.

Lemma buildOpen_idem fuel fuel' t junk junk' cs cs' se im out out' r r' R R' : open_call t junk cs se im out -> enough im fuel -> open_call t junk' cs' se R out' -> enough R fuel' ->
  In (0, 0, 0) (se_points se) ->
  buildOpen fuel t junk cs se false im out = Some (Some (r, R)) -> buildOpen fuel' t junk' cs' se false R out' = Some (Some (r', R')) -> R' = R.
Proof.
  intros C1 F1 C2 F2 Ho H1 H2. destruct (buildOpen_val _ _ _ _ _ _ _ _ _ C1 F1 H1) as (_ & WR & SR & TR & HB). destruct (buildOpen_val _ _ _ _ _ _ _ _ _ C2 F2 H2) as (_ & _ & _ & _ & HB').
  destruct C1 as ((Ht & W & _ & T & _) & _ & HG). pose proof (gse_pl _ _ HG) as HP. pose proof (origin_ne se Ho) as Hne.
  set (n := Z.to_nat (se_size se)) in *. pose proof (typed_pxv t im W T) as TF. pose proof (typed_pxv t R WR TR) as TG. rewrite SR in *.
  pose proof (open_below_rebuilt t se (sz im) im R Ho HP W eq_refl T n HB) as K.
  assert (E : mk_img (sz im) (Nat.iter n (can1 px_inf (tmax t) (sz im) (transpose se)) (pxv R)) = mk_img (sz im) (Nat.iter n (can1 px_inf (tmax t) (sz im) (transpose se)) (pxv im))).
  { apply mk_img_ext. intros x y z Hi. apply (adjn t (sz im) se Hne HP) in K; [|apply en_typed; assumption|exact TG].
    assert (leq (sz im) (pxv R) (pxv im)) as L.
    { intros a b c Hin. destruct (pixel_exists R a b c WR) as (u & Hu); [rewrite SR; exact Hin|]. destruct (pixel_exists im a b c W Hin) as (v & Hv).
      rewrite (pxv_is _ _ _ _ _ Hu), (pxv_is _ _ _ _ _ Hv). destruct HB as (_ & _ & HB). destruct (HB _ _ _ _ Hu) as (A & _). eapply flows_le_mask; eassumption. }
    pose proof (E_incr t (sz im) se Hne HP n (pxv R) (pxv im) TG TF L x y z Hi). pose proof (K x y z Hi). lia. }
  rewrite E in HB'. eapply rebuilt_fun; [exact HB'|]. eapply rebuilt_own_mask. exact HB.
Qed.

Lemma buildClose_idem fuel fuel' t junk junk' cs cs' se im out out' r r' R R' : open_call t junk cs se im out -> enough im fuel -> open_call t junk' cs' se R out' -> enough R fuel' ->
  In (0, 0, 0) (se_points se) -> symmetric_se se ->
  buildClose fuel t junk cs se false im out = Some (Some (r, R)) -> buildClose fuel' t junk' cs' se false R out' = Some (Some (r', R')) -> R' = R.
Proof.
  intros C1 F1 C2 F2 Ho Hsym H1 H2. destruct (buildClose_val _ _ _ _ _ _ _ _ _ C1 F1 H1) as (_ & WR & SR & TR & HB). destruct (buildClose_val _ _ _ _ _ _ _ _ _ C2 F2 H2) as (_ & _ & _ & _ & HB').
  destruct C1 as ((Ht & W & _ & T & _) & _ & HG). pose proof (gse_pl _ _ HG) as HP. pose proof (origin_ne se Ho) as Hne.
  set (n := Z.to_nat (se_size se)) in *. pose proof (typed_pxv t im W T) as TF. pose proof (typed_pxv t R WR TR) as TG. rewrite SR in *.
  pose proof (close_above_rebuilt t se (sz im) im R Ho HP W eq_refl T n Hsym HB) as K.
  assert (E : mk_img (sz im) (Nat.iter n (can1 px_sup (tmin t) (sz im) se) (pxv R)) = mk_img (sz im) (Nat.iter n (can1 px_sup (tmin t) (sz im) se) (pxv im))).
  { apply mk_img_ext. intros x y z Hi. apply (adjn t (sz im) se Hne HP) in K; [|exact TG|apply dn_typed; assumption].
    assert (leq (sz im) (pxv im) (pxv R)) as L.
    { intros a b c Hin. destruct (pixel_exists R a b c WR) as (u & Hu); [rewrite SR; exact Hin|]. destruct (pixel_exists im a b c W Hin) as (v & Hv).
      rewrite (pxv_is _ _ _ _ _ Hu), (pxv_is _ _ _ _ _ Hv). destruct HB as (_ & _ & HB). destruct (HB _ _ _ _ Hu) as (A & _). eapply flows_ge_mask; eassumption. }
    pose proof (D_incr t (sz im) se Hne HP n (pxv im) (pxv R) TF TG L x y z Hi). pose proof (K x y z Hi). lia. }
  rewrite E in HB'. eapply dual_rebuilt_fun; [exact HB'|]. eapply dual_rebuilt_own_mask. exact HB.
Qed.

Lemma buildOpen_incr fuel fuel' t junk junk' cs cs' se a b oa ob ra rb A B : open_call t junk cs se a oa -> enough a fuel -> open_call t junk' cs' se b ob -> enough b fuel' ->
  sz b = sz a -> le_img a b ->
  buildOpen fuel t junk cs se false a oa = Some (Some (ra, A)) -> buildOpen fuel' t junk' cs' se false b ob = Some (Some (rb, B)) -> le_img A B.
Proof.
  intros C1 F1 C2 F2 S Hle H1 H2. destruct (buildOpen_val _ _ _ _ _ _ _ _ _ C1 F1 H1) as (_ & WA & SA & TA & HA). destruct (buildOpen_val _ _ _ _ _ _ _ _ _ C2 F2 H2) as (_ & WB & SB & TB & HB).
  destruct C1 as ((Ht & W & _ & T & _) & _ & HG). destruct C2 as ((_ & W' & _ & T' & _) & _ & _). rewrite S in *.
  eapply rebuilt_increasing; [| | | | |exact Hle|exact HA|exact HB]; auto; [apply mk_img_wf; apply W|].
  apply le_img_leq; [apply W|]. apply E_incr; [eapply gse_ne; exact HG|eapply gse_pl; exact HG|apply typed_pxv; assumption|rewrite <- S; apply typed_pxv; assumption|].
  apply (le_lr a b (sz a)); auto.
Qed.
Lemma buildClose_incr fuel fuel' t junk junk' cs cs' se a b oa ob ra rb A B : open_call t junk cs se a oa -> enough a fuel -> open_call t junk' cs' se b ob -> enough b fuel' ->
  sz b = sz a -> le_img a b ->
  buildClose fuel t junk cs se false a oa = Some (Some (ra, A)) -> buildClose fuel' t junk' cs' se false b ob = Some (Some (rb, B)) -> le_img A B.
Proof.
  intros C1 F1 C2 F2 S Hle H1 H2. destruct (buildClose_val _ _ _ _ _ _ _ _ _ C1 F1 H1) as (_ & WA & SA & TA & HA). destruct (buildClose_val _ _ _ _ _ _ _ _ _ C2 F2 H2) as (_ & WB & SB & TB & HB).
  destruct C1 as ((Ht & W & _ & T & _) & _ & HG). destruct C2 as ((_ & W' & _ & T' & _) & _ & _). rewrite S in *.
  eapply dual_rebuilt_increasing; [| | | | |exact Hle|exact HA|exact HB]; auto; [apply mk_img_wf; apply W|].
  apply le_img_leq; [apply W|]. apply D_incr; [eapply gse_ne; exact HG|eapply gse_pl; exact HG|apply typed_pxv; assumption|rewrite <- S; apply typed_pxv; assumption|].
  apply (le_lr a b (sz a)); auto.
Qed.
