(** Proofs on the distance functions: [distGeneric]. *)
From Verif Require Export Proofs.DistanceProofs6.

Section Generic.
  Variables (se : strelt) (im : img).
  Let s := sz im.
  Let N := dw s * dh s * dd s.
  Let px := pixs im.
  Hypothesis W : wf_img im.
  Hypothesis AP : all_pos s.
  Hypothesis HP : planar se s.
  Hypothesis Sym : symmetric_se se.

  Definition tg (cur : Z) (p : point) : option Z :=
    let z := cur / (dw s * dh s) in
    let y := (cur - z * (dw s * dh s)) / dw s in
    let x := cur - y * dw s - z * (dw s * dh s) in
    let n_y := y + py_ p in
    let n_x := x + px_ p + bit (se_odd se && negb (y mod 2 =? 0) && oddb (n_y + 1)) in
    let n_z := z + pz_ p in
    if (0 <=? n_x) && (n_x <? dw s) && (0 <=? n_y) && (n_y <? dh s) && (0 <=? n_z) && (n_z <? dd s) then Some (n_x + n_y * dw s + n_z * (dw s * dh s)) else None.

  Lemma visit_tg lvl cur st p : generic_visit s se false px lvl cur st p = visit point tg px lvl cur st p.
  Proof. destruct st as [o n]. unfold generic_visit, visit, tg. cbv zeta. match goal with |- (if ?c then _ else _) = _ => destruct c end; reflexivity. Qed.

  Notation vo := (voxel_offset (dw s) (dh s)).

  Lemma decode x y z : inside s x y z -> vo x y z / (dw s * dh s) = z /\ (vo x y z - z * (dw s * dh s)) / dw s = y /\ vo x y z - y * dw s - z * (dw s * dh s) = x.
  Proof.
    intros (Hx & Hy & Hz). unfold voxel_offset. split; [|split].
    - replace (x + dw s * (y + dh s * z)) with (x + dw s * y + z * (dw s * dh s)) by ring. rewrite Z.div_add by nia. rewrite Z.div_small; nia.
    - replace (x + dw s * (y + dh s * z) - z * (dw s * dh s)) with (x + y * dw s) by ring. rewrite Z.div_add by nia. rewrite Z.div_small; nia.
    - ring.
  Qed.

  Lemma tg_coord x y z p : inside s x y z ->
    tg (vo x y z) p = let n_y := y + py_ p in let n_x := x + px_ p + hex_shift se y n_y in let n_z := z + pz_ p in
                      if insideb s n_x n_y n_z then Some (vo n_x n_y n_z) else None.
  Proof.
    intros I. unfold tg. destruct (decode x y z I) as (E1 & E2 & E3). cbv zeta. rewrite E1, E2, E3.
    rewrite odd_mod2, oddb_odd. unfold hex_shift. replace (y + py_ p + 1) with (Z.succ (y + py_ p)) by ring. rewrite Z.odd_succ.
    assert (B : forall b, bit b = if b then 1 else 0) by (intros []; reflexivity). rewrite B. unfold insideb.
    match goal with |- (if ?c then _ else _) = (if ?c' then _ else _) => replace c' with c by (clear; lia); destruct c end; [|reflexivity].
    f_equal. unfold voxel_offset. ring.
  Qed.

  Lemma tg_sees x y z x' y' z' : inside s x y z -> inside s x' y' z' -> ((exists p, In p (se_points se) /\ tg (vo x y z) p = Some (vo x' y' z')) <-> sees se x' y' z' x y z).
  Proof.
    intros I I'. rewrite (sees_shift se s) by eassumption. split; intros (p & Hp & H); exists p; (split; [exact Hp|]).
    - rewrite (tg_coord x y z p I) in H. cbv zeta in H. destruct (insideb s _ _ _) eqn:B in H; [|discriminate H]. apply insideb_spec in B. injection H as H.
      destruct (voxel_inj s _ _ _ _ _ _ B I' H) as (<- & <- & <-). auto.
    - rewrite (tg_coord x y z p I). cbv zeta. destruct H as (-> & -> & ->). rewrite (proj2 (insideb_spec s _ _ _) I'). reflexivity.
  Qed.

  Lemma tg_at i p j : 0 <= i < N -> tg i p = Some j -> exists x' y' z', inside s x' y' z' /\ j = vo x' y' z'.
  Proof.
    intros Hi T. destruct (voxel_surj s i (proj1 W) Hi) as (x & y & z & I & ->). rewrite (tg_coord x y z p I) in T. cbv zeta in T.
    destruct (insideb s _ _ _) eqn:B in T; [|discriminate T]. apply insideb_spec in B. injection T as <-. eauto.
  Qed.
  Lemma tg_range i p j : 0 <= i < N -> tg i p = Some j -> 0 <= j < N.
  Proof. intros Hi T. destruct (tg_at i p j Hi T) as (x & y & z & I & ->). apply inside_range. exact I. Qed.
  Lemma tg_sym i p j : 0 <= i < N -> In p (se_points se) -> tg i p = Some j -> exists p', In p' (se_points se) /\ tg j p' = Some i.
  Proof.
    intros Hi Hp T. destruct (tg_at i p j Hi T) as (x' & y' & z' & I' & ->). destruct (voxel_surj s i (proj1 W) Hi) as (x & y & z & I & ->).
    apply tg_sees; [exact I'|exact I|]. apply (sees_sym se s); auto. apply tg_sees; auto. exists p. auto.
  Qed.

  Notation steps := (steps N point (se_points se) tg px).

  Lemma steps_path n x y z : inside s x y z -> (steps n (vo x y z) <-> exists x' y' z', pixel_is im x' y' z' 0 /\ path se s n x y z x' y' z').
  Proof.
    revert x y z. induction n as [|n IH]; intros x y z I.
    - split.
      + intros H. exists x, y, z. split; [apply pixel_get; [exact W|]; split; [exact I|]; rewrite at_voxel; exact H|cbn; auto].
      + intros (x' & y' & z' & Hp & (-> & -> & ->)). apply (pixel_get _ _ _ _ _ W) in Hp as (_ & E). rewrite at_voxel in E. exact E.
    - split.
      + intros (j & p & Hj & Hp & T & S). destruct (tg_at _ _ _ (inside_range _ _ _ _ I) T) as (x1 & y1 & z1 & I1 & ->).
        apply (IH _ _ _ I1) in S as (x' & y' & z' & P0 & Pa). exists x', y', z'. split; [exact P0|]. exists x1, y1, z1. split; [|split; assumption].
        apply (sees_sym se s); auto. apply tg_sees; auto. exists p. auto.
      + intros (x' & y' & z' & P0 & x1 & y1 & z1 & S & I1 & Pa). apply (sees_sym se s) in S; auto. apply tg_sees in S as (p & Hp & T); auto.
        exists (vo x1 y1 z1), p. split; [apply inside_range; exact I1|]. split; [exact Hp|]. split; [exact T|]. apply (IH _ _ _ I1). exists x', y', z'. auto.
  Qed.

  (** The sources. *)
  Lemma sources_ok t1 t2 junk cs : dw s < 2 ^ 63 -> (forall k, legal_conf (dh s) (cs k)) -> typed_se se -> se_size se = 1 -> fits (transpose se) s ->
    tmin t1 = 0 \/ In (0, 0, 0) (se_points se) -> (forall i, 0 <= i < N -> 0 <= get px i) ->
    exists out, generic_sources t1 t2 junk cs se im = Some out /\ Z.of_nat (length out) = N /\
      forall i, 0 <= i < N -> (get out i = 0 \/ get out i = 1) /\ (get out i = 1 <-> 0 < get px i /\ steps 1 i).
  Proof.
    intros Hw Hcs HT Hs HF HO Pos. unfold generic_sources. cbv zeta. set (tmp := pw1 (fun v => px_inf v 1) im).
    assert (S1 : sz tmp = s) by reflexivity. destruct (pw1_spec (fun v => px_inf v 1) im W) as (_ & W1 & V1). fold tmp in W1, V1.
    destruct (erode_ok junk cs (tmax t1) se false tmp (new_img junk im)) as (E & EE & PE).
    - split; [exact W1|]. split; [|rewrite S1; exact Hw]. unfold nonempty, pixelCount. rewrite S1. fold s. destruct AP as (? & ? & ?). nia.
    - apply wf_junk. exact W.
    - rewrite S1. reflexivity.
    - discriminate.
    - rewrite S1. exact Hcs.
    - exact HT.
    - lia.
    - rewrite S1. exact HF.
    - rewrite S1. exact HP.
    - rewrite EE. cbn [option_bind snd]. rewrite Hs in PE. change (Z.to_nat 1) with 1%nat in PE. apply (proj1 (passes_one _ _ _)) in PE. destruct PE as (S2 & W2 & V2).
      eexists. split; [reflexivity|]. pose proof (tmax_pos t1) as TM. pose proof (tmax_pos t2) as TM2.
      assert (L1 : Z.of_nat (length (pixs tmp)) = N) by (rewrite (proj2 W1), S1; reflexivity).
      assert (L2 : Z.of_nat (length (pixs E)) = N) by (rewrite (proj2 W2), S2, S1; reflexivity).
      split; [rewrite map_length; unfold sub_im; cbn [pixs]; rewrite map2_length; clear - L1 L2; lia|].
      intros i Hi. destruct (voxel_surj s i (proj1 W) Hi) as (x & y & z & I & Ei).
      assert (Gt : get (pixs tmp) i = px_inf (get px i) 1).
      { unfold tmp. cbn [pw1 pixs]. unfold znth at 1. rewrite rd_map, (rd_znth 0) by (destruct W as (_ & L); fold px s in L |- *; fold N in L; lia). reflexivity. }
      assert (Go : get (map (fun v => if wrap t2 v >? 0 then 1 else wrap t2 v) (pixs (sub_im t1 tmp E))) i = (fun v => if wrap t2 v >? 0 then 1 else wrap t2 v) (px_sub t1 (px_inf (get px i) 1) (get (pixs E) i))).
      { unfold znth at 1. rewrite rd_map. unfold sub_im. cbn [pixs]. rewrite rd_map2, (rd_znth 0 (pixs tmp)), (rd_znth 0 (pixs E)), Gt by lia. reflexivity. }
      rewrite Go. clear Go.
      assert (PX : pixel_is E x y z (get (pixs E) i)). { apply pixel_get; [exact W2|]. rewrite S2, S1. split; [exact I|]. rewrite at_voxel, Ei. reflexivity. }
      destruct (V2 _ _ _ _ PX) as (Va & Vb). set (e := get (pixs E) i) in *.
      assert (Nb : forall v, ero_values se (tmax t1) tmp x y z v -> v = 0 \/ v = 1 \/ v = tmax t1).
      { intros v (x' & y' & z' & _ & [Hv|(_ & ->)]); [|auto]. assert (I' : inside s x' y' z') by (rewrite <- S1; apply Hv). pose proof (inside_range _ _ _ _ I') as R'.
        apply (pixel_get _ _ _ _ _ W1) in Hv as (_ & <-). rewrite S1, at_voxel. fold s.
        assert (G' : get (pixs tmp) (vo x' y' z') = px_inf (get px (vo x' y' z')) 1).
        { unfold tmp. cbn [pw1 pixs]. unfold znth at 1. rewrite rd_map, (rd_znth 0) by (destruct W as (_ & L); fold px s in L |- *; fold N in L, R'; lia). reflexivity. }
        rewrite G'. pose proof (Pos _ R') as P'. unfold px_inf. destruct (Z.ltb_spec (get px (vo x' y' z')) 1); lia. }
      assert (Z0 : e = 0 <-> steps 1 i).
      { split.
        - intros E0. rewrite E0 in Va. destruct Va as (x' & y' & z' & Se & [Hv|(_ & B)]); [|lia]. assert (I' : inside s x' y' z') by (rewrite <- S1; apply Hv).
          apply tg_sees in Se as (p & Hp & T); auto. exists (vo x' y' z'), p. rewrite Ei. split; [apply inside_range; exact I'|]. split; [exact Hp|]. split; [exact T|].
          apply (pixel_get _ _ _ _ _ W1) in Hv as (_ & Hv). rewrite S1 in Hv. apply (inf1_zero im _ W) in Hv; [|rewrite at_voxel; apply inside_range; exact I']. rewrite at_voxel in Hv. exact Hv.
        - intros (j & p & Hj & Hp & T & S0). destruct (tg_at _ _ _ Hi T) as (x' & y' & z' & I' & ->). assert (Q : e <= 0).
          { apply Vb. exists x', y', z'. split; [apply tg_sees; auto; exists p; rewrite <- Ei; auto|]. left. apply pixel_get; [exact W1|]. rewrite S1. split; [exact I'|].
            rewrite at_voxel. apply (inf1_zero im _ W); [apply inside_range; exact I'|exact S0]. }
          destruct (Nb e Va) as [?|[?|?]]; lia. }
      assert (C0 : get px i = 0 -> In (0, 0, 0) (se_points se) -> e = 0).
      { intros G0 Ho. apply Z0. exists i, (0, 0, 0). split; [exact Hi|]. split; [exact Ho|]. split; [|exact G0]. rewrite Ei, tg_coord by exact I. cbv zeta.
        unfold px_, py_, pz_. cbn [fst snd]. rewrite !Z.add_0_r. replace (hex_shift se y y) with 0 by (unfold hex_shift; rewrite <- Z.negb_even; destruct (se_odd se), (Z.even y); reflexivity).
        rewrite Z.add_0_r, (proj2 (insideb_spec s _ _ _) I). reflexivity. }
      pose proof (Pos i Hi) as Pi. assert (He : e = 0 \/ e = 1 \/ e = tmax t1) by (apply Nb; exact Va).
      assert (W0 : forall t, wrap t 0 = 0 /\ wrap t 1 = 1) by (intros []; split; reflexivity).
      assert (In1 : px_inf (get px i) 1 = if get px i =? 0 then 0 else 1). { unfold px_inf. destruct (Z.ltb_spec (get px i) 1), (Z.eqb_spec (get px i) 0); lia. }
      assert (RES : px_sub t1 (px_inf (get px i) 1) e = if (0 <? get px i) && (e =? 0) then 1 else 0).
      { rewrite In1. assert (Tm : wrap t1 (tmin t1 + 0) = tmin t1) by (destruct t1; reflexivity). assert (T1 : wrap t1 (tmin t1 + 1) = tmin t1 + 1) by (destruct t1; reflexivity).
        assert (T2 : 0 <= wrap t1 (tmin t1 + tmax t1) + 1 /\ (wrap t1 (tmin t1 + tmax t1) <= tmax t1)) by (destruct t1; cbv; split; discriminate).
        assert (Tn : tmin t1 <= 0) by (destruct t1; cbv; discriminate).
        unfold px_sub. destruct (Z.eqb_spec (get px i) 0) as [G0|G0].
        - replace (0 <? get px i) with false by lia. cbn [andb]. destruct (Z.eq_dec e 0) as [-> |Ne].
          + rewrite Tm. replace (0 <? tmin t1) with false by lia. apply W0.
          + destruct HO as [HO|HO]; [|exfalso; apply Ne, C0; assumption]. rewrite HO. rewrite Z.add_0_l, (wrap_pos t1 e) by lia. replace (0 <? e) with true by lia. reflexivity.
        - replace (0 <? get px i) with true by lia. cbn [andb]. destruct He as [-> |[-> | ->]].
          + rewrite Tm. replace (1 <? tmin t1) with false by lia. apply W0.
          + rewrite T1. replace (1 <? tmin t1 + 1) with false by lia. cbn [Z.sub Z.eqb]. apply W0.
          + replace (tmax t1 =? 0) with false by lia. destruct HO as [HO|HO]; [destruct t1; try discriminate HO; reflexivity|exfalso].
            enough (tmax t1 <= 1) by lia. apply Vb. exists x, y, z. split; [apply sees_self; exact HO|]. left. apply pixel_get; [exact W1|]. rewrite S1. split; [exact I|].
            rewrite at_voxel, <- Ei, Gt, In1. destruct (Z.eqb_spec (get px i) 0); [contradiction|reflexivity]. }
      rewrite RES. destruct (Z.ltb_spec 0 (get px i)); destruct (Z.eqb_spec e 0); cbn [andb]; rewrite ?(proj1 (W0 t2)), ?(proj2 (W0 t2)); cbn; (split; [auto|]); rewrite <- Z0; split; intros; try lia; auto.
  Qed.
End Generic.

Theorem distGeneric_spec t1 t2 junk cs fuel se imIn imOut : wf_img imIn -> wf_img imOut -> sz imOut = sz imIn -> all_pos (sz imIn) -> dw (sz imIn) < 2 ^ 63 ->
  (forall k, legal_conf (dh (sz imIn)) (cs k)) -> typed_se se -> se_size se = 1 -> fits (transpose se) (sz imIn) -> planar se (sz imIn) -> symmetric_se se ->
  tmin t1 = 0 \/ In (0, 0, 0) (se_points se) -> (forall x y z v, pixel_is imIn x y z v -> 0 <= v) ->
  (forall n x y z, inside (sz imIn) x y z -> zero_at se imIn n x y z -> exists m, zero_at se imIn m x y z /\ Z.of_nat m <= tmax t2) ->
  pixelCount (sz imIn) < Z.of_nat fuel ->
  exists out, distGeneric t1 t2 junk cs fuel se false imIn imOut = Some (Some (1, out)) /\ step_map se imIn out.
Proof.
  intros W W' ES AP Hw Hcs HT Hs HF HP Sym HO Pos Short Hf. unfold distGeneric. rewrite same_size_sz by congruence. cbn [negb].
  set (s := sz imIn) in *. set (N := dw s * dh s * dd s). set (px := pixs imIn).
  assert (L : Z.of_nat (length px) = N) by apply W.
  assert (Pos' : forall i, 0 <= i < N -> 0 <= get px i).
  { intros i Hi. destruct (voxel_surj s i (proj1 W) Hi) as (x & y & z & I & ->). apply (Pos x y z). apply pixel_get; [exact W|]. split; [exact I|]. rewrite at_voxel. reflexivity. }
  destruct (sources_ok se imIn W AP HP t1 t2 junk cs Hw Hcs HT Hs HF HO Pos') as (out & E & Lo & V). rewrite E. cbn [option_bind].
  fold s N px in V, Lo. pose proof (tmax_pos t2) as TM.
  assert (GL : forall fuel lvl level o, generic_levels s se false t2 px fuel lvl level o = levels point (se_points se) (tg se imIn) px (fun k => wrap t2 (k + 1)) fuel lvl level o).
  { induction fuel0 as [|f IH]; intros lvl level o; [reflexivity|]. cbn [generic_levels levels].
    assert (FE : forall l st, fold_opt (fun st cur => fold_opt (generic_visit s se false px lvl cur) (se_points se) st) l st = fold_opt (fun st cur => fold_opt (visit point (tg se imIn) px lvl cur) (se_points se) st) l st).
    { induction l as [|c l IHl]; intros st; [reflexivity|]. cbn [fold_opt].
      assert (FI : forall q st, fold_opt (generic_visit s se false px lvl c) q st = fold_opt (visit point (tg se imIn) px lvl c) q st).
      { induction q as [|p q IHq]; intros st'; [reflexivity|]. cbn [fold_opt]. pose proof (visit_tg se imIn lvl c st' p) as VT. fold s px in VT. rewrite VT. destruct (visit _ _ _ _ _ _ _); [apply IHq|reflexivity]. }
      rewrite FI. destruct (fold_opt _ (se_points se) st); [apply IHl|reflexivity]. }
    rewrite FE. destruct (fold_opt _ level (o, [])) as [[o' [|j nx]]|]; cbn [option_bind]; [reflexivity|apply IH|reflexivity]. }
  rewrite GL.
  assert (TR : forall i p j, 0 <= i < N -> tg se imIn i p = Some j -> 0 <= j < N) by (intros i p j; apply (tg_range se imIn W)).
  assert (TS : forall i p j, 0 <= i < N -> In p (se_points se) -> tg se imIn i p = Some j -> exists p', In p' (se_points se) /\ tg se imIn j p' = Some i) by (intros i p j; apply (tg_sym se imIn W HP Sym)).
  assert (T2 : 2 <= tmax t2) by lia.
  assert (LV : forall k, 2 <= k -> k + 1 <= tmax t2 -> wrap t2 (k + 1) = k + 1) by (intros k Hk Hk'; apply wrap_pos; lia).
  assert (SH : forall n i, 0 <= i < N -> steps N point (se_points se) (tg se imIn) px n i -> exists m, steps N point (se_points se) (tg se imIn) px m i /\ Z.of_nat m <= tmax t2).
  { intros n i Hi S. destruct (voxel_surj s i (proj1 W) Hi) as (x & y & z & I & ->). apply (steps_path se imIn W HP Sym) in S; [|exact I].
    destruct (Short n x y z I S) as (m & Sm & Hm). exists m. split; [|exact Hm]. apply (steps_path se imIn W HP Sym); [exact I|exact Sm]. }
  destruct (levels_ok N point (se_points se) (tg se imIn) px (tmax t2) (fun k => wrap t2 (k + 1))) with (fuel := fuel) (k := 2) (lvl := 2)
    (level := filter (fun i => znth 0 out i >? 0) (zseq (Z.of_nat (length out)))) (out := out) as (out' & k' & E' & K' & HI).
  - exact TR.
  - exact TS.
  - exact L.
  - exact Pos'.
  - exact T2.
  - exact LV.
  - exact SH.
  - lia.
  - reflexivity.
  - split; [exact Lo|]. split.
    + intros i Hi. destruct (V i Hi) as (V1 & V2). split; [lia|]. split; [intros G0; destruct V1 as [?|V1]; [assumption|apply V2 in V1; lia]|]. split.
      * intros Hp. assert (G1 : get out i = 1) by lia. apply V2 in G1 as G2. destruct G2 as (Vp & S1). exists 1%nat. split; [rewrite G1; reflexivity|]. split; [exact S1|].
        intros [|m] Sm; [cbn in Sm; lia|lia].
      * intros G0 Vp [|[|m]] Sm; [cbn in Sm; lia| |lia]. exfalso. assert (get out i = 1) by (apply V2; auto). lia.
    + intros i. rewrite filter_In, zseq_In. rewrite Lo. split.
      * intros (Hi & G). split; [exact Hi|]. destruct (V i Hi) as (V1 & _). lia.
      * intros (Hi & G). split; [exact Hi|]. lia.
  - pose proof (zeros_length out) as ZL. assert (PC : pixelCount s = N) by (unfold pixelCount, lineCount, N; ring). clear - ZL PC Hf Lo. lia.
  - rewrite E'. cbn [fuel_bind]. eexists. split; [reflexivity|].
    assert (WO : wf_img (Img (sz imOut) out')). { split; [rewrite ES; apply W|]. cbn [sz pixs]. rewrite ES. destruct HI as (Lo' & _). exact Lo'. }
    split; [exact ES|]. split; [exact WO|]. intros x y z o Ho. apply (pixel_get _ _ _ _ _ WO) in Ho as (I & <-). cbn [sz pixs] in *. rewrite ES in *. rewrite at_voxel.
    destruct (inv_end N point (se_points se) (tg se imIn) px (tmax t2) (fun k => wrap t2 (k + 1)) TR TS Pos' LV SH k' out' K' HI) with (i := voxel_offset (dw s) (dh s) x y z) as (HA & HB); auto; try (apply inside_range; exact I).
    split.
    + intros n Hn. apply (steps_path se imIn W HP Sym) in Hn; [|exact I]. destruct (HA n Hn) as (m & Em & Sm & Lm). split.
      * exists m. split; [symmetry; exact Em|]. apply (steps_path se imIn W HP Sym); [exact I|exact Sm].
      * intros u (q & -> & Hq). apply (steps_path se imIn W HP Sym) in Hq; [|exact I]. specialize (Lm q Hq). fold s. lia.
    + intros Hn. apply HB. intros n Sn. apply (Hn n). apply (steps_path se imIn W HP Sym); [exact I|exact Sn].
Qed.
