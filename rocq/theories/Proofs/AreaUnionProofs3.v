(** Area openings by union-find on flat images: the result on images. *)
From Verif Require Export Proofs.AreaUnionProofs2.

Local Notation "l # i" := (znth 0 l i) (at level 9).

Definition cross_points : list point := [(-1, 0, 0); (1, 0, 0); (0, -1, 0); (0, 1, 0)].
Lemma cross_points_ok d : In d cross_points <-> In d (se_points (noCenter (CrossSE 1))).
Proof. change (se_points (noCenter (CrossSE 1))) with [(1, 0, 0); (-1, 0, 0); (0, -1, 0); (0, 1, 0)]. unfold cross_points. cbn. tauto. Qed.
Lemma cross_symmetric : symmetric_se (CrossSE 1).
Proof. intros p. split; intros H; vm_compute in H; vm_compute; tauto. Qed.

Section flat.
Variables (w h : Z) (px : list Z) (lam : Z).
Local Notation s := (Dims w h 1).
Local Notation N := (w * h * 1).
Hypothesis Hs : wf_dims s.
Hypothesis Hlen : Z.of_nat (length px) = N.
Hypothesis Hty : forall p, 0 <= p < N -> inty UINT8 (px # p).
Hypothesis Hlam : 1 <= lam.
Local Notation adj := (covers (CrossSE 1) s).
Local Notation rk := (rank px).
Local Notation uinv := (uinv px N lam adj rk N).
Local Notation lk := (lk px N adj).

Lemma step_scan fuel par p : 0 <= p < N -> area_step fuel lam w h px par p = option_bind (wr par p (-1)) (fun par => lscan s px lam fuel p cross_points par).
Proof using Hs Hlen Hlam Hty.
  intros Rp. unfold area_step. rewrite (rd_znth 0) by lia. cbn [option_bind]. destruct (wr par p (-1)) as [par1|]; [cbn [option_bind]|reflexivity].
  assert (W0 : 0 < w) by (destruct Hs as (A & B & _); cbn in A, B; nia). assert (H0 : 0 < h) by (destruct Hs as (A & B & _); cbn in A, B; nia).
  pose proof (Z.mod_pos_bound p w W0) as Mx. assert (My : 0 <= p / w < h) by (split; [apply Z.div_pos; lia|apply Z.div_lt_upper_bound; lia]).
  pose proof (Z.div_mod p w ltac:(lia)) as Dm.
  assert (One : forall d l ok nb strict pa, uf_window s (p mod w + px_ d) (p / w + py_ d) (0 + pz_ d) = ok -> p + uf_pixel s (px_ d) (py_ d) (pz_ d) = nb -> (ok = true -> 0 <= nb < N) -> (strict = false <-> nb < p) ->
    lscan s px lam fuel p (d :: l) pa = fuel_bind (try_link fuel lam px p (px # p) ok nb strict pa) (lscan s px lam fuel p l)).
  { intros d l ok nb strict pa Wd En Rn St. cbn [lscan]. unfold uf_coords. cbn [dd dw dh]. change (1 >? 1) with false. cbv iota beta. rewrite Wd, En. unfold try_link. destruct ok; cbn [negb]; [|reflexivity].
    specialize (Rn eq_refl). rewrite !(rd_znth 0) by lia. cbn [option_bind]. destruct strict.
    - assert (~ nb < p) by (intros L; apply St in L; discriminate). replace ((px # p <? px # nb) || ((px # p =? px # nb) && (nb <? p))) with (px # p <? px # nb) by lia.
      destruct (px # p <? px # nb); reflexivity.
    - assert (nb < p) by (apply St; reflexivity). replace ((px # p <? px # nb) || ((px # p =? px # nb) && (nb <? p))) with (px # p <=? px # nb) by lia.
      destruct (px # p <=? px # nb); reflexivity. }
  unfold cross_points.
  rewrite (One (-1, 0, 0) _ (p mod w - 1 >=? 0) (p - 1) false); cycle 1.
  { unfold uf_window, px_, py_, pz_. cbn [fst snd dw dh dd]. lia. }
  { unfold uf_pixel, px_, py_, pz_. cbn [fst snd dw dh dd]. change (1 >? 1) with false. cbv iota. lia. }
  { intros Q. nia. }
  { split; [lia|reflexivity]. }
  destruct (try_link _ _ _ _ _ _ _ _ _) as [[pa1|]|]; [cbn [fuel_bind]|reflexivity|reflexivity].
  rewrite (One (1, 0, 0) _ (p mod w + 1 <? w) (p + 1) true); cycle 1.
  { unfold uf_window, px_, py_, pz_. cbn [fst snd dw dh dd]. lia. }
  { unfold uf_pixel, px_, py_, pz_. cbn [fst snd dw dh dd]. change (1 >? 1) with false. cbv iota. lia. }
  { intros Q. nia. }
  { split; [discriminate|lia]. }
  destruct (try_link _ _ _ _ _ _ _ _ _) as [[pa2|]|]; [cbn [fuel_bind]|reflexivity|reflexivity].
  rewrite (One (0, -1, 0) _ (p / w - 1 >=? 0) (p - w) false); cycle 1.
  { unfold uf_window, px_, py_, pz_. cbn [fst snd dw dh dd]. lia. }
  { unfold uf_pixel, px_, py_, pz_. cbn [fst snd dw dh dd]. change (1 >? 1) with false. cbv iota. lia. }
  { intros Q. nia. }
  { split; [lia|reflexivity]. }
  destruct (try_link _ _ _ _ _ _ _ _ _) as [[pa3|]|]; [cbn [fuel_bind]|reflexivity|reflexivity].
  rewrite (One (0, 1, 0) _ (p / w + 1 <? h) (p + w) true); cycle 1.
  { unfold uf_window, px_, py_, pz_. cbn [fst snd dw dh dd]. lia. }
  { unfold uf_pixel, px_, py_, pz_. cbn [fst snd dw dh dd]. change (1 >? 1) with false. cbv iota. lia. }
  { intros Q. nia. }
  { split; [discriminate|lia]. }
  destruct (try_link _ _ _ _ _ _ _ _ _) as [[pa4|]|]; reflexivity.
Qed.

Lemma loop_merge fuel todo par : (forall p, In p todo -> 0 <= p < N) -> area_loop fuel lam w h px todo par = lmerge s px lam cross_points fuel todo par.
Proof using Hs Hlen Hlam Hty.
  revert par. induction todo as [|p todo IH]; intros par Ht; [reflexivity|]. cbn [area_loop lmerge]. rewrite step_scan by (apply Ht; left; reflexivity).
  destruct (wr par p (-1)) as [par1|]; [cbn [option_bind]|reflexivity]. destruct (lscan _ _ _ _ _ _ _) as [[par2|]|]; [cbn [fuel_bind]|reflexivity|reflexivity]. apply IH. intros q Hq. apply Ht. right. exact Hq.
Qed.

Theorem greyAreaOpening_offsets fuel junk par0 : (Z.to_nat N < fuel)%nat -> Z.of_nat (length par0) = N ->
  exists out, greyAreaOpening fuel junk lam w h px par0 = Some (Some out) /\ Z.of_nat (length out) = N /\
    forall p, 0 <= p < N -> exists r, out # p = px # r /\ lk (px # r) p r /\ (big lam (lk (px # r) p) \/ forall q, kon adj p q -> px # r <= px # q) /\
      forall g, px # r < g <= px # p -> ~ big lam (lk g p).
Proof using Hs Hlen Hlam Hty.
  intros HF L0. unfold greyAreaOpening.
  pose proof (uf_adj_sym UINT8 (CrossSE 1) s px lam Hs Hlen Hty eq_refl cross_symmetric Hlam) as Sy.
  pose proof (uf_adj_rng UINT8 (CrossSE 1) s px lam Hs Hlen Hty eq_refl cross_symmetric Hlam) as Rg. cbn [dw dh dd] in Rg.
  rewrite pixelDownSort_ok; cycle 1.
  { intros v Hv. apply In_rd in Hv as (i & Ri & Hi). specialize (Hty i ltac:(lia)). rewrite (rd_znth 0) in Hi by lia. injection Hi as <-. cbn in Hty. unfold inty in Hty. cbn in Hty. lia. }
  { rewrite map_length. destruct Hs as (A & B & _). cbn in A, B. rewrite zseq_length by nia. lia. }
  cbn [option_bind]. rewrite loop_merge by (intros p Hp; apply order_In in Hp; lia).
  destruct (lmerge_ok (CrossSE 1) s px lam cross_points Hs Hlen Hty eq_refl cross_symmetric Hlam cross_points_ok fuel (order px) [] par0 HF eq_refl L0) as (par & E1 & L1 & V).
  { intros c _ Hc. apply (start_uinv UINT8 (CrossSE 1) s px lam Hs Hlen Hty eq_refl cross_symmetric Hlam). intros a Ra Ca. destruct (Hc a Ra Ca). }
  rewrite E1. cbn [fuel_bind].
  destruct (lower_bound UINT8 (CrossSE 1) s px lam Hs Hlen Hty eq_refl cross_symmetric Hlam px) as (c & Hc).
  assert (Vc : uinv (fun q => 0 <= q < N) (among (CrossSE 1) s (fun q => 0 <= q < N)) (fun q => par # q) c).
  { apply V. intros a Ra. cbn [dw dh dd] in Ra. apply Hc. eapply rd_In. apply (rd_znth 0). lia. }
  destruct (resolve_ok (CrossSE 1) s px lam Hs Hlen Hty eq_refl cross_symmetric Hlam c par Vc ltac:(cbn [dw dh dd]; lia) [] (order px) par) as (out & E2 & L2 & H2).
  - rewrite app_nil_r. reflexivity.
  - cbn [dw dh dd]. lia.
  - reflexivity.
  - intros q r [].
  - rewrite E2. cbn [option_bind]. exists out. split; [reflexivity|]. split; [exact L2|]. intros p Rp.
    destruct (root_exists (fun q => 0 <= q < N) rk N (v_rk _ _ _ _ _ _ _ _ _ _ Vc) _ p (v_rank _ _ _ _ _ _ _ _ _ _ Vc) Rp) as (r & Hr).
    exists r. split; [apply (H2 p r Rp Hr)|]. pose proof (v_lk _ _ _ _ _ _ _ _ _ _ Vc p r Rp Hr) as Lk. split; [exact Lk|]. split; [|intros g; apply (v_not _ _ _ _ _ _ _ _ _ _ Vc p r g Rp Hr)].
    destruct (root_in _ rk N (v_rk _ _ _ _ _ _ _ _ _ _ Vc) _ p r (v_rank _ _ _ _ _ _ _ _ _ _ Vc) Rp Hr) as (Rr & _). pose proof (root_neg _ _ _ Hr) as Fr. cbv beta in Fr.
    destruct (Z_lt_dec (- par # r) lam) as [Q|Q].
    + right. intros q Hq. destruct (v_act _ _ _ _ _ _ _ _ _ _ Vc r Rr Fr Q) as (B1 & _).
      assert (kon (among (CrossSE 1) s (fun q => 0 <= q < N)) r q) as Hk.
      { eapply kon_trans; [apply (kon_sym _ p r (v_sym _ _ _ _ _ _ _ _ _ _ Vc)), (v_kon _ _ _ _ _ _ _ _ _ _ Vc p r Rp Hr)|]. revert Hq. apply kon_mono. intros u v A. split; [exact A|]. split; [exact (Rg _ _ A)|exact (Rg _ _ (Sy _ _ A))]. }
      pose proof (kon_D px N lam adj rk N Sy Rg Hlam _ _ _ _ r q Vc Rr Hk) as Rq. destruct (lk_start px N adj _ _ _ (v_lk _ _ _ _ _ _ _ _ _ _ Vc q r Rq (B1 q Hk))) as (_ & Hle). exact Hle.
    + left. eapply big_mono; [exact Sy|exact Rg|exact Hlam| |apply (v_full _ _ _ _ _ _ _ _ _ _ Vc r Rr Fr); lia]. intros q Hq. eapply lk_trans; [exact Lk|exact Hq].
Qed.
End flat.

Lemma offsets_opened se im out n : wf_img im -> planar se (sz im) -> symmetric_se se -> Z.of_nat (length out) = dw (sz im) * dh (sz im) * dd (sz im) ->
  (forall p, 0 <= p < dw (sz im) * dh (sz im) * dd (sz im) -> exists r, out # p = (pixs im) # r /\ lk (pixs im) (dw (sz im) * dh (sz im) * dd (sz im)) (covers se (sz im)) ((pixs im) # r) p r /\
    (big n (lk (pixs im) (dw (sz im) * dh (sz im) * dd (sz im)) (covers se (sz im)) ((pixs im) # r) p) \/ forall q, kon (covers se (sz im)) p q -> (pixs im) # r <= (pixs im) # q) /\
    forall h, (pixs im) # r < h <= (pixs im) # p -> ~ big n (lk (pixs im) (dw (sz im) * dh (sz im) * dd (sz im)) (covers se (sz im)) h p)) ->
  area_opened n se im (Img (sz im) out).
Proof.
  intros W HP Hsy Lo H. pose proof W as (Wd & Wl). split; [reflexivity|]. split; [split; [exact Wd|cbn [pixs sz]; lia]|].
    intros x y z v o Pv Po. assert (inside (sz im) x y z) as I by apply Pv. set (p := voxel_offset (dw (sz im)) (dh (sz im)) x y z).
    assert (Eo : out # p = o) by (destruct Po as (_ & Po); cbn [pixs sz] in Po; unfold znth, p; rewrite Po; reflexivity).
    assert (Ev : (pixs im) # p = v) by exact (pixel_znth im _ _ _ _ Pv).
    destruct (H p (inside_range _ _ _ _ I)) as (r & Er & Lk & B & C). rewrite Eo in Er. rewrite <- Er in Lk, B, C. rewrite Ev in C.
    destruct (lk_start _ _ _ _ _ _ Lk) as (_ & Lv). rewrite Ev in Lv.
    destruct (lk_end (pixs im) _ (covers se (sz im)) (covers_sym se (sz im) Hsy HP) (adj_rng' se (sz im)) _ _ _ Lk) as (Rr & _).
    destruct (LoopFacts.voxel_surj (sz im) r Wd Rr) as (xr & yr & zr & Ir & Eqr).
    assert (Hb : zone_has CArea n (upper_zone se im o x y z) \/ forall q, kon (covers se (sz im)) p q -> o <= (pixs im) # q).
    { destruct B as [B|B]; [left; apply zone_big; assumption|right; exact B]. }
    assert (Kr : kon (covers se (sz im)) p r). { clear - Lk. induction Lk as [|a b L IH A B]; [apply kon_refl|]. eapply kon_step; eassumption. }
    assert (Pr : pixel_is im xr yr zr o) by (rewrite Er, Eqr; apply znth_pixel; assumption).
    assert (Hr : reach se im x y z xr yr zr) by (apply reach_kon; [assumption..|]; fold p; rewrite <- Eqr; exact Kr).
    split; [exact Lv|]. split; [exists xr, yr, zr; auto|]. split; [|intros h Hh Z; apply (C h Hh); apply zone_big in Z; assumption].
    destruct Hb as [Hb|Hb]; [left; exact Hb|right]. intros a b c w R P. rewrite <- (pixel_znth im _ _ _ _ P). apply Hb. apply reach_kon in R; try assumption. apply P.
Qed.

(** The first slice of an image. *)
Definition first_slice (im : img) : img := Img (Dims (dw (sz im)) (dh (sz im)) 1) (firstn (Z.to_nat (dw (sz im) * dh (sz im))) (pixs im)).

Theorem fast_area_opening fuel junk im imOut n : wf_img im -> typed_img UINT8 im -> wf_img imOut -> sz imOut = sz im -> 1 <= dd (sz im) -> 1 <= n -> (length (pixs im) < fuel)%nat ->
  exists o, imAreaOpening_UnionFind fuel junk im n imOut = Some (Some (1, Img (sz im) (o ++ repeat 0 (length (pixs im) - length o)))) /\
    area_opened n (CrossSE 1) (first_slice im) (Img (Dims (dw (sz im)) (dh (sz im)) 1) o).
Proof.
  intros W Ty Wo So Hd Hn HF. pose proof W as ((W1 & W2 & W3) & Wl). destruct Wo as (_ & Wlo). rewrite So in Wlo. unfold imAreaOpening_UnionFind. rewrite same_size_true by congruence. cbn [negb].
  set (w := dw (sz im)) in *. set (h := dh (sz im)) in *. set (px := firstn (Z.to_nat (w * h)) (pixs im)).
  assert (P1 : 0 <= w * h) by nia. assert (P2 : w * h <= w * h * dd (sz im)) by nia.
  assert (Lx : Z.of_nat (length px) = w * h * 1) by (unfold px; rewrite firstn_length; lia).
  assert (Lout : length (pixs imOut) = length (pixs im)) by lia. rewrite Lout.
  assert (Ez : firstn (Z.to_nat (w * h)) (repeat 0 (length (pixs im))) = repeat 0 (Z.to_nat (w * h))).
  { replace (length (pixs im)) with (Z.to_nat (w * h) + (length (pixs im) - Z.to_nat (w * h)))%nat by lia. rewrite repeat_app, firstn_app, repeat_length, Nat.sub_diag. cbn [firstn]. rewrite app_nil_r, firstn_all2; [reflexivity|rewrite repeat_length; lia]. }
  assert (Ez' : skipn (Z.to_nat (w * h)) (repeat 0 (length (pixs im))) = repeat 0 (length (pixs im) - Z.to_nat (w * h))).
  { replace (length (pixs im)) with (Z.to_nat (w * h) + (length (pixs im) - Z.to_nat (w * h)))%nat at 1 by lia. rewrite repeat_app, skipn_app, repeat_length, Nat.sub_diag. cbn [skipn]. rewrite skipn_all2; [reflexivity|rewrite repeat_length; lia]. }
  rewrite Ez, Ez'.
  assert (Wd : wf_dims (Dims w h 1)) by (repeat split; cbn; lia).
  assert (Hty : forall p, 0 <= p < w * h * 1 -> inty UINT8 px # p).
  { intros p Hp. assert (In (px # p) px) as Hi by (eapply rd_In; apply (rd_znth 0); lia). apply (proj1 (Forall_forall _ _) Ty). unfold px in Hi. rewrite <- (firstn_skipn (Z.to_nat (w * h)) (pixs im)). apply in_or_app. left. exact Hi. }
  destruct (greyAreaOpening_offsets w h px n Wd Lx Hty Hn fuel junk (repeat 0 (Z.to_nat (w * h)))) as (o & E & Lo & H); [lia|rewrite repeat_length; lia|].
  rewrite E. cbn [fuel_bind]. exists o. split; [rewrite So; replace (length o) with (Z.to_nat (w * h)) by lia; reflexivity|].
  apply (offsets_opened (CrossSE 1) (first_slice im) o n); [split; [exact Wd|exact Lx]|intros Q; discriminate Q|exact cross_symmetric|exact Lo|exact H].
Qed.

(** ** The closing *)
Lemma inv_int_none v : 0 <= v < 2 ^ 31 -> inv_int v = None.
Proof. intros H. unfold inv_int. replace ((2 ^ 31 - 1 - v <? 2 ^ 31) && (2 ^ 31 - 1 - v + 2 ^ 31 <? 2 ^ 31)) with false by lia. reflexivity. Qed.
