From Verif Require Export Proofs.MorphTheorems.
From Verif Require Import Proofs.PixelProofs Proofs.IntsFacts.

Lemma call_parts cs alias im out : call_ok cs alias im out -> good_img im /\ wf_img out /\ sz out = sz im /\ (alias = true -> out = im) /\ (forall k, legal_conf (dh (sz im)) (cs k)).
Proof. intros H. exact H. Qed.

Lemma dilate_val t junk cs se alias im out r : call_ok cs alias im out -> good_se se (sz im) ->
  dilate junk cs (tmin t) se alias im out = Some r -> r = (1, mk_img (sz im) (Dn t (sz im) se (pxv im))).
Proof. intros (A & B & C & D & E) HG H. rewrite (dilate_eq t junk se im A HG cs alias out E B C D) in H. congruence. Qed.
Lemma erode_val t junk cs se alias im out r : call_ok cs alias im out -> good_se se (sz im) ->
  erode junk cs (tmax t) se alias im out = Some r -> r = (1, mk_img (sz im) (En t (sz im) se (pxv im))).
Proof. intros (A & B & C & D & E) HG H. rewrite (erode_eq t junk se im A HG cs alias out E B C D) in H. congruence. Qed.

Lemma open_val t junk cs1 cs2 se alias im out r : call_ok cs1 alias im out -> (forall k, legal_conf (dh (sz im)) (cs2 k)) -> good_se se (sz im) ->
  open_im t junk cs1 cs2 se alias im out = Some r -> r = (1, mk_img (sz im) (Dn t (sz im) se (En t (sz im) se (pxv im)))).
Proof. intros (A & B & C & D & E) H2 HG H. rewrite (open_eq t junk se im A HG cs1 cs2 alias out) in H by assumption. congruence. Qed.
Lemma close_val t junk cs1 cs2 se alias im out r : call_ok cs1 alias im out -> (forall k, legal_conf (dh (sz im)) (cs2 k)) -> good_se se (sz im) ->
  close_im t junk cs1 cs2 se alias im out = Some r -> r = (1, mk_img (sz im) (En t (sz im) se (Dn t (sz im) se (pxv im)))).
Proof. intros (A & B & C & D & E) H2 HG H. rewrite (close_eq t junk se im A HG cs1 cs2 alias out) in H by assumption. congruence. Qed.

Lemma gse_ne se s : good_se se s -> se_points se <> [].
Proof. intros (H & _). apply typed_nonempty. exact H. Qed.
Lemma gse_pl se s : good_se se s -> planar se s.
Proof. intros H. apply H. Qed.

Lemma le_l im s G : wf_img im -> sz im = s -> (le_img im (mk_img s G) <-> leq s (pxv im) G).
Proof. intros W <-. rewrite <- (le_img_leq (sz im) (pxv im) G) by apply W. rewrite <- (img_mk im W). reflexivity. Qed.
Lemma le_r im s G : wf_img im -> sz im = s -> (le_img (mk_img s G) im <-> leq s G (pxv im)).
Proof. intros W <-. rewrite <- (le_img_leq (sz im) G (pxv im)) by apply W. rewrite <- (img_mk im W). reflexivity. Qed.
Lemma le_lr a b s : wf_img a -> wf_img b -> sz a = s -> sz b = s -> (le_img a b <-> leq s (pxv a) (pxv b)).
Proof. intros W W' S S'. rewrite (img_mk b W') at 1. rewrite S'. apply le_l; assumption. Qed.

Lemma typed_px t im s : wf_img im -> typed_img t im -> sz im = s -> typedf t s (pxv im).
Proof. intros W T <-. apply typed_pxv; assumption. Qed.

Theorem adjunction t junk junk' cs cs' se alias alias' A B oa ob ra rb D E :
  call_ok cs alias A oa -> call_ok cs' alias' B ob -> sz B = sz A -> typed_img t A -> typed_img t B -> good_se se (sz A) ->
  dilate junk cs (tmin t) se alias A oa = Some (ra, D) -> erode junk' cs' (tmax t) se alias' B ob = Some (rb, E) ->
  (le_img D B <-> le_img A E).
Proof.
  intros HA HB HS TA TB HG H1 H2. apply dilate_val in H1; [|exact HA|exact HG]. apply erode_val in H2; [|exact HB|rewrite HS; exact HG]. injection H1 as -> ->. injection H2 as -> ->.
  destruct HA as ((WA & _) & _), HB as ((WB & _) & _). rewrite HS. rewrite le_r by auto. rewrite le_l by auto.
  apply (adjn t (sz A) se (gse_ne _ _ HG) (gse_pl _ _ HG)); apply typed_px; auto.
Qed.

Theorem dilate_incr t junk junk' cs cs' se alias alias' A B oa ob ra rb D E :
  call_ok cs alias A oa -> call_ok cs' alias' B ob -> sz B = sz A -> typed_img t A -> typed_img t B -> good_se se (sz A) ->
  dilate junk cs (tmin t) se alias A oa = Some (ra, D) -> dilate junk' cs' (tmin t) se alias' B ob = Some (rb, E) -> le_img A B -> le_img D E.
Proof.
  intros HA HB HS TA TB HG H1 H2. apply dilate_val in H1; [|exact HA|exact HG]. apply dilate_val in H2; [|exact HB|rewrite HS; exact HG]. injection H1 as -> ->. injection H2 as -> ->.
  destruct HA as ((WA & _) & _), HB as ((WB & _) & _). rewrite HS. rewrite le_img_leq by apply WA. rewrite (le_lr A B (sz A)) by auto.
  apply (D_incr t (sz A) se (gse_ne _ _ HG) (gse_pl _ _ HG)); apply typed_px; auto.
Qed.
Theorem erode_incr t junk junk' cs cs' se alias alias' A B oa ob ra rb D E :
  call_ok cs alias A oa -> call_ok cs' alias' B ob -> sz B = sz A -> typed_img t A -> typed_img t B -> good_se se (sz A) ->
  erode junk cs (tmax t) se alias A oa = Some (ra, D) -> erode junk' cs' (tmax t) se alias' B ob = Some (rb, E) -> le_img A B -> le_img D E.
Proof.
  intros HA HB HS TA TB HG H1 H2. apply erode_val in H1; [|exact HA|exact HG]. apply erode_val in H2; [|exact HB|rewrite HS; exact HG]. injection H1 as -> ->. injection H2 as -> ->.
  destruct HA as ((WA & _) & _), HB as ((WB & _) & _). rewrite HS. rewrite le_img_leq by apply WA. rewrite (le_lr A B (sz A)) by auto.
  apply (E_incr t (sz A) se (gse_ne _ _ HG) (gse_pl _ _ HG)); apply typed_px; auto.
Qed.

Lemma pw_pxv f a b r : wf_img a -> wf_img b -> pointwise2 f a b r -> forall x y z, inside (sz a) x y z -> pxv r x y z = f (pxv a x y z) (pxv b x y z).
Proof.
  intros Wa Wb (S & S' & W & H) x y z Hi. destruct (pixel_exists a x y z Wa Hi) as (u & Hu). destruct (pixel_exists b x y z Wb) as (v & Hv); [rewrite <- S', S; exact Hi|].
  rewrite (pxv_is _ _ _ _ _ (H _ _ _ _ _ Hu Hv)), (pxv_is _ _ _ _ _ Hu), (pxv_is _ _ _ _ _ Hv). reflexivity.
Qed.

Lemma pw_mk f s F G R : wf_dims s -> (forall x y z, inside s x y z -> R x y z = f (F x y z) (G x y z)) -> pointwise2 f (mk_img s F) (mk_img s G) (mk_img s R).
Proof.
  intros Hw H. split; [reflexivity|]. split; [reflexivity|]. split; [apply mk_img_wf; exact Hw|]. intros x y z u v Hu Hv.
  apply mk_img_is in Hu as (Hi & ->); [|exact Hw]. apply mk_img_is in Hv as (_ & ->); [|exact Hw]. apply mk_img_is; [exact Hw|]. split; [exact Hi|]. symmetry. apply H. exact Hi.
Qed.

Lemma cann_comb op Rel bv s se n F G H : (forall a b c, Rel (op a b) c <-> Rel a c /\ Rel b c) -> (forall a b : Z, (forall c : Z, Rel a c <-> Rel b c) -> a = b) -> se_points se <> [] ->
  op bv bv = bv ->
  (forall x y z, inside s x y z -> H x y z = op (F x y z) (G x y z)) -> forall x y z, inside s x y z ->
  Nat.iter n (can1 op bv s se) H x y z = op (Nat.iter n (can1 op bv s se) F x y z) (Nat.iter n (can1 op bv s se) G x y z).
Proof.
  intros HO HE HN HB HH x y z Hi. rewrite <- (cann_sup op Rel bv s HO HE se HN n F G x y z Hi). apply cann_ext; [exact HH|exact Hi].
Qed.

Lemma px_sup_max a b : px_sup a b = Z.max a b.
Proof. unfold px_sup. destruct (a >? b) eqn:E; lia. Qed.
Lemma px_inf_min a b : px_inf a b = Z.min a b.
Proof. unfold px_inf. destruct (a <? b) eqn:E; lia. Qed.

Theorem dilate_sup t junk ja jb cs ca cb se al al1 al2 A B M oa ob om ra rb rm DA DB DM :
  call_ok ca al1 A oa -> call_ok cb al2 B ob -> call_ok cs al M om -> pointwise2 Z.max A B M -> good_se se (sz A) ->
  dilate ja ca (tmin t) se al1 A oa = Some (ra, DA) -> dilate jb cb (tmin t) se al2 B ob = Some (rb, DB) -> dilate junk cs (tmin t) se al M om = Some (rm, DM) ->
  pointwise2 Z.max DA DB DM.
Proof.
  intros HA HB HM HP HG H1 H2 H3. pose proof HP as (S & S' & _). apply dilate_val in H1; [|exact HA|exact HG]. apply dilate_val in H2; [|exact HB|rewrite <- S', S; exact HG].
  apply dilate_val in H3; [|exact HM|rewrite S; exact HG]. injection H1 as -> ->. injection H2 as -> ->. injection H3 as -> ->.
  destruct HA as ((WA & _) & _), HB as ((WB & _) & _). rewrite <- S', S. apply pw_mk; [apply WA|]. intros x y z Hi.
  rewrite <- px_sup_max. apply (cann_comb px_sup Z.le); [exact sup_lub|exact le_eq|apply (gse_ne _ _ HG)|rewrite px_sup_max; lia| |exact Hi].
  intros x0 y0 z0 Hi0. rewrite (pw_pxv _ _ _ _ WA WB HP) by exact Hi0. symmetry. apply px_sup_max.
Qed.
Theorem erode_inf t junk ja jb cs ca cb se al al1 al2 A B M oa ob om ra rb rm DA DB DM :
  call_ok ca al1 A oa -> call_ok cb al2 B ob -> call_ok cs al M om -> pointwise2 Z.min A B M -> good_se se (sz A) ->
  erode ja ca (tmax t) se al1 A oa = Some (ra, DA) -> erode jb cb (tmax t) se al2 B ob = Some (rb, DB) -> erode junk cs (tmax t) se al M om = Some (rm, DM) ->
  pointwise2 Z.min DA DB DM.
Proof.
  intros HA HB HM HP HG H1 H2 H3. pose proof HP as (S & S' & _). apply erode_val in H1; [|exact HA|exact HG]. apply erode_val in H2; [|exact HB|rewrite <- S', S; exact HG].
  apply erode_val in H3; [|exact HM|rewrite S; exact HG]. injection H1 as -> ->. injection H2 as -> ->. injection H3 as -> ->.
  destruct HA as ((WA & _) & _), HB as ((WB & _) & _). rewrite <- S', S. apply pw_mk; [apply WA|]. intros x y z Hi.
  rewrite <- px_inf_min. apply (cann_comb px_inf Z.ge); [exact inf_lub|exact ge_eq|apply HNt; apply (gse_ne _ _ HG)|rewrite px_inf_min; lia| |exact Hi].
  intros x0 y0 z0 Hi0. rewrite (pw_pxv _ _ _ _ WA WB HP) by exact Hi0. symmetry. apply px_inf_min.
Qed.

(** ** Duality *)
Lemma neg_pxv t a b : wf_img a -> negative t a b -> forall x y z, inside (sz a) x y z -> pxv b x y z = tmin t + tmax t - pxv a x y z.
Proof. intros W (S & W' & H) x y z Hi. destruct (pixel_exists a x y z W Hi) as (u & Hu). rewrite (pxv_is _ _ _ _ _ (H _ _ _ _ Hu)), (pxv_is _ _ _ _ _ Hu). reflexivity. Qed.

Lemma neg_mk t s F R : wf_dims s -> (forall x y z, inside s x y z -> R x y z = tmin t + tmax t - F x y z) -> negative t (mk_img s F) (mk_img s R).
Proof.
  intros Hw H. split; [reflexivity|]. split; [apply mk_img_wf; exact Hw|]. intros x y z u Hu. apply mk_img_is in Hu as (Hi & ->); [|exact Hw].
  apply mk_img_is; [exact Hw|]. split; [exact Hi|]. symmetry. apply H. exact Hi.
Qed.

Lemma negative_sym t a b : wf_img a -> negative t a b -> negative t b a.
Proof.
  intros Wa (S & W & H). split; [auto|]. split; [exact Wa|]. intros x y z u Hu. destruct (pixel_exists a x y z Wa) as (v & Hv); [rewrite <- S; apply Hu|].
  pose proof (H _ _ _ _ Hv) as K. assert (u = tmin t + tmax t - v) as -> by (destruct Hu as (_ & Hu), K as (_ & K); congruence). replace (tmin t + tmax t - (tmin t + tmax t - v)) with v by lia. exact Hv.
Qed.

Lemma cann_neg t s se se' n F G : se_points se <> [] -> se_points se' <> [] -> (forall p, In p (se_points se') <-> In p (se_points se)) -> se_odd se' = se_odd se ->
  (forall x y z, inside s x y z -> G x y z = tmin t + tmax t - F x y z) -> forall x y z, inside s x y z ->
  Nat.iter n (can1 px_inf (tmax t) s se') G x y z = tmin t + tmax t - Nat.iter n (can1 px_sup (tmin t) s se) F x y z.
Proof.
  intros HN HN' Hp Ho HH x y z Hi. rewrite (cann_ext _ _ _ _ n G _ HH) by exact Hi.
  symmetry. apply (passn_can px_inf Z.ge (tmax t) s inf_lub ge_eq se' HN' n _ (fun x y z => tmin t + tmax t - Nat.iter n (can1 px_sup (tmin t) s se) F x y z)); [|exact Hi].
  apply (passn_neg t s n se se' F _ Hp Ho). apply (cann_pass px_sup Z.le); [exact sup_lub|exact HN].
Qed.

Lemma mirror_pts se se' : mirrored se se' -> (forall p, In p (se_points (transpose se')) <-> In p (se_points se)).
Proof.
  intros (Ho & _ & H) p. rewrite transpose_In, H, transpose_In, Ho, refl_invol. reflexivity.
Qed.

Theorem duality t junk junk' cs cs' se se' alias alias' A B oa ob ra rb D E :
  call_ok cs alias A oa -> call_ok cs' alias' B ob -> negative t A B -> good_se se (sz A) -> good_se se' (sz A) -> mirrored se se' ->
  dilate junk cs (tmin t) se alias A oa = Some (ra, D) -> erode junk' cs' (tmax t) se' alias' B ob = Some (rb, E) -> negative t D E.
Proof.
  intros HA HB HN HG HG' HM H1 H2. pose proof HN as (S & _). apply dilate_val in H1; [|exact HA|exact HG]. apply erode_val in H2; [|exact HB|rewrite S; exact HG'].
  injection H1 as -> ->. injection H2 as -> ->. destruct HA as ((WA & _) & _). rewrite S. apply neg_mk; [apply WA|]. intros x y z Hi.
  pose proof HM as (Ho & Hs & _). rewrite Hs. apply cann_neg; [apply (gse_ne _ _ HG)|apply HNt; apply (gse_ne _ _ HG')|apply mirror_pts; exact HM|exact Ho| |exact Hi].
  apply neg_pxv; assumption.
Qed.

Lemma mirrored_sym se se' : mirrored se se' -> mirrored se' se.
Proof. intros HM. pose proof HM as (A & B & C). split; [auto|]. split; [auto|]. intros p. symmetry. apply mirror_pts. exact HM. Qed.

(** ** Filters *)
Section F.
Variables (t : ity) (se : strelt).

Theorem open_incr junk junk' c1 c2 c1' c2' al al' A B oa ob ra rb D E :
  call_ok c1 al A oa -> (forall k, legal_conf (dh (sz A)) (c2 k)) -> call_ok c1' al' B ob -> (forall k, legal_conf (dh (sz A)) (c2' k)) -> sz B = sz A ->
  typed_img t A -> typed_img t B -> good_se se (sz A) ->
  open_im t junk c1 c2 se al A oa = Some (ra, D) -> open_im t junk' c1' c2' se al' B ob = Some (rb, E) -> le_img A B -> le_img D E.
Proof.
  intros HA H2 HB H2' HS TA TB HG H1 H3. apply open_val in H1; [|exact HA|exact H2|exact HG]. apply open_val in H3; [|exact HB|rewrite HS; exact H2'|rewrite HS; exact HG]. injection H1 as -> ->. injection H3 as -> ->.
  destruct HA as ((WA & _) & _), HB as ((WB & _) & _). rewrite HS. rewrite le_img_leq by apply WA. rewrite (le_lr A B (sz A)) by auto. intros HL.
  pose proof (typed_px t A (sz A) WA TA eq_refl) as TA'. pose proof (typed_px t B (sz A) WB TB HS) as TB'.
  apply (D_incr t (sz A) se (gse_ne _ _ HG) (gse_pl _ _ HG)); [apply en_typed; [apply (gse_ne _ _ HG)|exact TA']|apply en_typed; [apply (gse_ne _ _ HG)|exact TB']|].
  apply (E_incr t (sz A) se (gse_ne _ _ HG) (gse_pl _ _ HG)); assumption.
Qed.
Theorem close_incr junk junk' c1 c2 c1' c2' al al' A B oa ob ra rb D E :
  call_ok c1 al A oa -> (forall k, legal_conf (dh (sz A)) (c2 k)) -> call_ok c1' al' B ob -> (forall k, legal_conf (dh (sz A)) (c2' k)) -> sz B = sz A ->
  typed_img t A -> typed_img t B -> good_se se (sz A) ->
  close_im t junk c1 c2 se al A oa = Some (ra, D) -> close_im t junk' c1' c2' se al' B ob = Some (rb, E) -> le_img A B -> le_img D E.
Proof.
  intros HA H2 HB H2' HS TA TB HG H1 H3. apply close_val in H1; [|exact HA|exact H2|exact HG]. apply close_val in H3; [|exact HB|rewrite HS; exact H2'|rewrite HS; exact HG]. injection H1 as -> ->. injection H3 as -> ->.
  destruct HA as ((WA & _) & _), HB as ((WB & _) & _). rewrite HS. rewrite le_img_leq by apply WA. rewrite (le_lr A B (sz A)) by auto. intros HL.
  pose proof (typed_px t A (sz A) WA TA eq_refl) as TA'. pose proof (typed_px t B (sz A) WB TB HS) as TB'.
  apply (E_incr t (sz A) se (gse_ne _ _ HG) (gse_pl _ _ HG)); [apply dn_typed; [apply (gse_ne _ _ HG)|exact TA']|apply dn_typed; [apply (gse_ne _ _ HG)|exact TB']|].
  apply (D_incr t (sz A) se (gse_ne _ _ HG) (gse_pl _ _ HG)); assumption.
Qed.

Theorem open_filter junk junk' c1 c2 c1' c2' al al' A oa ob ra D :
  call_ok c1 al A oa -> (forall k, legal_conf (dh (sz A)) (c2 k)) -> call_ok c1' al' D ob -> (forall k, legal_conf (dh (sz A)) (c2' k)) ->
  typed_img t A -> good_se se (sz A) -> open_im t junk c1 c2 se al A oa = Some (ra, D) ->
  typed_img t D /\ le_img D A /\ open_im t junk' c1' c2' se al' D ob = Some (1, D).
Proof.
  intros HA H2 HD H2' TA HG H1. apply open_val in H1; [|exact HA|exact H2|exact HG]. injection H1 as -> ->. destruct HA as ((WA & _) & _).
  pose proof (gse_ne _ _ HG) as NE. pose proof (gse_pl _ _ HG) as PL. pose proof (typed_px t A (sz A) WA TA eq_refl) as TA'.
  assert (typedf t (sz A) (Dn t (sz A) se (En t (sz A) se (pxv A)))) as TD by (apply dn_typed; [exact NE|]; apply en_typed; assumption).
  split; [apply typed_mk; exact TD|]. split; [apply le_r; auto; apply DE_below; assumption|].
  destruct HD as (GD & WD & SD & AD & LD). rewrite (open_eq t junk' se _ GD HG c1' c2' al' ob LD H2' WD SD AD). do 2 f_equal. apply mk_img_ext.
  intros x y z Hi. cbn [sz mk_img] in *. set (V := Dn t (sz A) se (En t (sz A) se (pxv A))) in *.
  transitivity (Dn t (sz A) se (En t (sz A) se V) x y z).
  { apply cann_ext; [|exact Hi]. intros x1 y1 z1 Hi1. apply cann_ext; [|exact Hi1]. intros x2 y2 z2 Hi2. apply pxv_mk; [apply WA|exact Hi2]. }
  apply Z.le_antisymm.
  - apply DE_below; assumption.
  - apply (open_idem t (sz A) se NE PL); assumption.
Qed.
Theorem close_filter junk junk' c1 c2 c1' c2' al al' A oa ob ra D :
  call_ok c1 al A oa -> (forall k, legal_conf (dh (sz A)) (c2 k)) -> call_ok c1' al' D ob -> (forall k, legal_conf (dh (sz A)) (c2' k)) ->
  typed_img t A -> good_se se (sz A) -> close_im t junk c1 c2 se al A oa = Some (ra, D) ->
  typed_img t D /\ le_img A D /\ close_im t junk' c1' c2' se al' D ob = Some (1, D).
Proof.
  intros HA H2 HD H2' TA HG H1. apply close_val in H1; [|exact HA|exact H2|exact HG]. injection H1 as -> ->. destruct HA as ((WA & _) & _).
  pose proof (gse_ne _ _ HG) as NE. pose proof (gse_pl _ _ HG) as PL. pose proof (typed_px t A (sz A) WA TA eq_refl) as TA'.
  assert (typedf t (sz A) (En t (sz A) se (Dn t (sz A) se (pxv A)))) as TD by (apply en_typed; [exact NE|]; apply dn_typed; assumption).
  split; [apply typed_mk; exact TD|]. split; [apply le_l; auto; apply ED_above; assumption|].
  destruct HD as (GD & WD & SD & AD & LD). rewrite (close_eq t junk' se _ GD HG c1' c2' al' ob LD H2' WD SD AD). do 2 f_equal. apply mk_img_ext.
  intros x y z Hi. cbn [sz mk_img] in *. set (V := En t (sz A) se (Dn t (sz A) se (pxv A))) in *.
  transitivity (En t (sz A) se (Dn t (sz A) se V) x y z).
  { apply cann_ext; [|exact Hi]. intros x1 y1 z1 Hi1. apply cann_ext; [|exact Hi1]. intros x2 y2 z2 Hi2. apply pxv_mk; [apply WA|exact Hi2]. }
  apply Z.le_antisymm.
  - apply (close_idem t (sz A) se NE PL); assumption.
  - apply ED_above; assumption.
Qed.

Theorem open_close_dual se' junk junk' c1 c2 c1' c2' al al' A B oa ob ra rb D E :
  call_ok c1 al A oa -> (forall k, legal_conf (dh (sz A)) (c2 k)) -> call_ok c1' al' B ob -> (forall k, legal_conf (dh (sz A)) (c2' k)) ->
  negative t A B -> good_se se (sz A) -> good_se se' (sz A) -> mirrored se se' ->
  open_im t junk c1 c2 se al A oa = Some (ra, D) -> close_im t junk' c1' c2' se' al' B ob = Some (rb, E) -> negative t D E.
Proof.
  intros HA H2 HB H2' HN HG HG' HM H1 H3. pose proof HN as (S & _). apply open_val in H1; [|exact HA|exact H2|exact HG]. apply close_val in H3; [|exact HB|rewrite S; exact H2'|rewrite S; exact HG'].
  injection H1 as -> ->. injection H3 as -> ->. destruct HA as ((WA & _) & _), HB as ((WB & _) & _). rewrite S. apply neg_mk; [apply WA|]. intros x y z Hi.
  pose proof HM as (Ho & Hs & Hp). rewrite Hs.
  apply cann_neg; [apply (gse_ne _ _ HG)|apply HNt; apply (gse_ne _ _ HG')|apply mirror_pts; exact HM|exact Ho| |exact Hi].
  intros x1 y1 z1 Hi1.
  enough (Nat.iter (Z.to_nat (se_size se)) (can1 px_inf (tmax t) (sz A) (transpose se)) (pxv A) x1 y1 z1 =
          tmin t + tmax t - Nat.iter (Z.to_nat (se_size se)) (can1 px_sup (tmin t) (sz A) se') (pxv B) x1 y1 z1) by lia.
  apply cann_neg; [apply (gse_ne _ _ HG')|apply HNt; apply (gse_ne _ _ HG)| |cbn [transpose se_odd]; auto| |exact Hi1].
  - intros p. rewrite Hp. reflexivity.
  - intros x2 y2 z2 Hi2. rewrite (neg_pxv t A B WA HN) by exact Hi2. lia.
Qed.
End F.

(** ** Residues *)
Lemma tmin_unsigned t : is_signed t = false -> tmin t = 0.
Proof. unfold tmin. intros ->. reflexivity. Qed.

Lemma map2_mk f s F G : wf_dims s -> Img s (map2 f (pixs (mk_img s F)) (pixs (mk_img s G))) = mk_img s (fun x y z => f (F x y z) (G x y z)).
Proof. intros Hw. unfold mk_img. cbn [pixs]. f_equal. induction (grid (dw s) (dh s) (dd s)) as [|[[a b] c] l IH]; [reflexivity|]. cbn. rewrite IH. reflexivity. Qed.

Lemma sub_im_mk t s F G : wf_dims s -> sub_im t (mk_img s F) (mk_img s G) = mk_img s (fun x y z => px_sub t (F x y z) (G x y z)).
Proof. intros Hw. unfold sub_im. cbn [sz mk_img]. apply map2_mk. exact Hw. Qed.

Lemma new_call junk cs im : good_img im -> (forall k, legal_conf (dh (sz im)) (cs k)) -> call_ok cs false im (new_img junk im).
Proof. intros G L. split; [exact G|]. split; [apply wf_junk; apply G|]. split; [reflexivity|]. split; [discriminate|exact L]. Qed.

Theorem topHat_exact t junk c1 c2 se im : is_signed t = false -> good_img im -> typed_img t im -> (forall k, legal_conf (dh (sz im)) (c1 k)) -> (forall k, legal_conf (dh (sz im)) (c2 k)) -> good_se se (sz im) ->
  exists O R, open_im t junk c1 c2 se false im (new_img junk im) = Some (1, O) /\ topHat t junk c1 c2 se im = Some (1, R) /\ pointwise2 Z.sub im O R.
Proof.
  intros HU GI TI L1 L2 HG. pose proof (new_call junk c1 im GI L1) as HC. destruct HC as (_ & W & S & A & _).
  pose proof (open_eq t junk se im GI HG c1 c2 false (new_img junk im) L1 L2 W S A) as E. unfold topHat. rewrite E. cbn [option_bind snd].
  do 2 eexists. split; [reflexivity|]. split; [reflexivity|]. destruct GI as (WI & _).
  assert (forall R, pointwise2 Z.sub (mk_img (sz im) (pxv im)) R (sub_im t (mk_img (sz im) (pxv im)) R) -> pointwise2 Z.sub im R (sub_im t im R)) as K by (intros R; rewrite <- (img_mk im WI); auto).
  apply K. rewrite sub_im_mk by apply WI. apply pw_mk; [apply WI|]. intros x y z Hi.
  pose proof (typed_px t im (sz im) WI TI eq_refl) as TI'. rewrite px_sub_unsigned; [|exact HU|apply TI'; exact Hi|].
  - assert (Dn t (sz im) se (En t (sz im) se (pxv im)) x y z <= pxv im x y z) as LE by (apply (DE_below t (sz im) se (gse_ne _ _ HG) (gse_pl _ _ HG) (Z.to_nat (se_size se)) (pxv im) TI' x y z Hi)). pose proof (tmin_unsigned t HU). lia.
  - apply dn_typed; [apply (gse_ne _ _ HG)|apply en_typed; [apply (gse_ne _ _ HG)|exact TI']|exact Hi].
Qed.

Theorem dualTopHat_exact t junk c1 c2 se im : is_signed t = false -> good_img im -> typed_img t im -> (forall k, legal_conf (dh (sz im)) (c1 k)) -> (forall k, legal_conf (dh (sz im)) (c2 k)) -> good_se se (sz im) ->
  exists O R, close_im t junk c1 c2 se false im (new_img junk im) = Some (1, O) /\ dualTopHat t junk c1 c2 se im = Some (1, R) /\ pointwise2 Z.sub O im R.
Proof.
  intros HU GI TI L1 L2 HG. pose proof (new_call junk c1 im GI L1) as HC. destruct HC as (_ & W & S & A & _).
  pose proof (close_eq t junk se im GI HG c1 c2 false (new_img junk im) L1 L2 W S A) as E. unfold dualTopHat. rewrite E. cbn [option_bind snd].
  do 2 eexists. split; [reflexivity|]. split; [reflexivity|]. destruct GI as (WI & _).
  assert (forall R, pointwise2 Z.sub R (mk_img (sz im) (pxv im)) (sub_im t R (mk_img (sz im) (pxv im))) -> pointwise2 Z.sub R im (sub_im t R im)) as K by (intros R; rewrite <- (img_mk im WI); auto).
  apply K. rewrite sub_im_mk by apply WI. apply pw_mk; [apply WI|]. intros x y z Hi.
  pose proof (typed_px t im (sz im) WI TI eq_refl) as TI'. rewrite px_sub_unsigned; [|exact HU| |apply TI'; exact Hi].
  - assert (pxv im x y z <= En t (sz im) se (Dn t (sz im) se (pxv im)) x y z) as LE by (apply (ED_above t (sz im) se (gse_ne _ _ HG) (gse_pl _ _ HG) (Z.to_nat (se_size se)) (pxv im) TI' x y z Hi)). pose proof (tmin_unsigned t HU). lia.
  - apply en_typed; [apply (gse_ne _ _ HG)|apply dn_typed; [apply (gse_ne _ _ HG)|exact TI']|exact Hi].
Qed.

Theorem gradient_exact t junk c1 c2 se1 se2 im : is_signed t = false -> good_img im -> typed_img t im -> (forall k, legal_conf (dh (sz im)) (c1 k)) -> (forall k, legal_conf (dh (sz im)) (c2 k)) ->
  good_se se1 (sz im) -> good_se se2 (sz im) ->
  exists D E R, dilate junk c1 (tmin t) se1 false im (new_img junk im) = Some (1, D) /\ erode junk c2 (tmax t) se2 false im (new_img junk im) = Some (1, E) /\
    gradient t junk c1 c2 se1 se2 im = Some (1, R) /\ pointwise2 (fun d e => Z.max 0 (d - e)) D E R.
Proof.
  intros HU GI TI L1 L2 HG1 HG2. destruct (new_call junk c1 im GI L1) as (_ & W & S & A & _).
  pose proof (dilate_eq t junk se1 im GI HG1 c1 false (new_img junk im) L1 W S A) as E1. pose proof (erode_eq t junk se2 im GI HG2 c2 false (new_img junk im) L2 W S A) as E2.
  unfold gradient. rewrite E1. cbn [option_bind snd]. rewrite E2. cbn [option_bind snd]. do 3 eexists. split; [reflexivity|]. split; [reflexivity|]. split; [reflexivity|].
  destruct GI as (WI & _). rewrite sub_im_mk by apply WI. apply pw_mk; [apply WI|]. intros x y z Hi. pose proof (typed_px t im (sz im) WI TI eq_refl) as TI'.
  rewrite px_sub_unsigned; [pose proof (tmin_unsigned t HU); lia|exact HU|apply dn_typed; [apply (gse_ne _ _ HG1)|exact TI'|exact Hi]|apply en_typed; [apply (gse_ne _ _ HG2)|exact TI'|exact Hi]].
Qed.
