(** Theorems for C35 and C55 to C57: hit-or-miss transforms, thinnings, composite elements, skeleton. *)
From Verif Require Import Proofs.HitOrMissProofs3 Props.P_Morph.

(** ** C35.  The hit-or-miss transform is the minimum of the erosion by the foreground element and of the erosion of the
    negative by the background element, for any border value. *)
Theorem C35_hitOrMiss : forall t junk cs bv fg bg im out,
  hom_call t [(fg, bg)] im out -> (forall j k, legal_conf (dh (sz im)) (cs j k)) ->
  exists H, hitOrMiss t junk cs bv fg bg false im out = Some (1, H) /\ hit_by t bv (fg, bg) im H.
Proof.
  intros t junk cs bv fg bg im out (Gi & Ti & Wo & So & Hl) HL. apply Forall_cons_iff in Hl as ((Gf & Gb) & _). apply hitOrMiss_ok; assumption.
Qed.
Print Assumptions C35_hitOrMiss.

(** C35.  On a binary image, with the default border value and elements of size one: exactly the pixels around which the
    foreground element falls on the foreground and the background element on the background, inside the image. *)
Theorem C35_hitOrMiss_binary : forall t junk cs fg bg im out r H,
  hom_call t [(fg, bg)] im out -> (forall j k, legal_conf (dh (sz im)) (cs j k)) -> binary t im -> se_size fg = 1 -> se_size bg = 1 ->
  hitOrMiss t junk cs (tmin t) fg bg false im out = Some (r, H) -> drawn t (matches t (fg, bg) im) (sz im) H.
Proof.
  intros t junk cs fg bg im out r H HC HL B S1 S2 E. destruct (C35_hitOrMiss t junk cs (tmin t) fg bg im out HC HL) as (H' & E' & HH). rewrite E in E'. injection E' as -> ->.
  apply hit_binary; auto. apply HC.
Qed.
Print Assumptions C35_hitOrMiss_binary.

(** C35.  By a list of elements: the highest of the hits; on binary images, the pixels hit by some element. *)
Theorem C35_hitOrMiss_list : forall t junk cs bv l im out,
  hom_call t l im out -> (forall i j k, legal_conf (dh (sz im)) (cs i j k)) ->
  exists H, hitOrMiss_list t junk cs bv l false im out = Some (1, H) /\ hits_any t bv l im H /\
    (binary t im -> bv = tmin t -> Forall (fun c => se_size (fst c) = 1 /\ se_size (snd c) = 1) l -> drawn t (fun x y z => exists c, In c l /\ matches t c im x y z) (sz im) H).
Proof.
  intros t junk cs bv l im out (Gi & Ti & Wo & So & Hl) HL. destruct (hitOrMiss_list_ok t junk bv cs im Gi Ti HL l out Hl Wo So) as (R & E & HR). exists R. split; [exact E|]. split; [exact HR|].
  intros B Eb HS. eapply (hits_binary t junk bv im Gi l R B Eb HS); [|exact HR]. intros (fg, bg) Hc. destruct (proj1 (Forall_forall _ _) Hl _ Hc) as (Gf & Gb).
  destruct (hitOrMiss_ok t junk (cs 0%nat) bv fg bg im out) as (H & _ & HH); auto. exists H. exact HH.
Qed.
Print Assumptions C35_hitOrMiss_list.

(** C35.  Thinning removes the hits and is below the image; thickening adds them and is above.  imIn and imOut may be the
    same image. *)
Theorem C35_thin : forall t junk cs fg bg im out,
  hom_call t [(fg, bg)] im out -> (forall j k, legal_conf (dh (sz im)) (cs j k)) ->
  exists R, thin t junk cs fg bg im out = Some (1, R) /\ thinned t (fg, bg) im R /\ le_img R im /\
    (binary t im -> se_size fg = 1 -> se_size bg = 1 -> drawn t (fun x y z => pixel_is im x y z (tmax t) /\ ~ matches t (fg, bg) im x y z) (sz im) R).
Proof.
  intros t junk cs fg bg im out (Gi & Ti & Wo & So & Hl) HL. apply Forall_cons_iff in Hl as ((Gf & Gb) & _). destruct (thin_ok t junk cs fg bg im out) as (R & E & HR); auto.
  exists R. split; [exact E|]. split; [exact HR|]. split; [eapply thinned_le; [apply Gi|exact HR]|]. intros. apply thinned_binary; auto. apply Gi.
Qed.
Print Assumptions C35_thin.

Theorem C35_thick : forall t junk cs fg bg im out,
  hom_call t [(fg, bg)] im out -> (forall j k, legal_conf (dh (sz im)) (cs j k)) ->
  exists R, thick t junk cs fg bg im out = Some (1, R) /\ thickened t (fg, bg) im R /\ le_img im R /\
    (binary t im -> se_size fg = 1 -> se_size bg = 1 -> drawn t (fun x y z => pixel_is im x y z (tmax t) \/ matches t (fg, bg) im x y z) (sz im) R).
Proof.
  intros t junk cs fg bg im out (Gi & Ti & Wo & So & Hl) HL. apply Forall_cons_iff in Hl as ((Gf & Gb) & _). destruct (thick_ok t junk cs fg bg im out) as (R & E & HR); auto.
  exists R. split; [exact E|]. split; [exact HR|]. split; [eapply thickened_ge; [apply Gi|exact HR]|]. intros. apply thickened_binary; auto. apply Gi.
Qed.
Print Assumptions C35_thick.

(** C35.  By a list: the elements are applied one after the other. *)
Theorem C35_lists : forall t junk cs l im out,
  hom_call t l im out -> (forall i j k, legal_conf (dh (sz im)) (cs i j k)) ->
  (exists R, thin_list t junk cs l im out = Some (1, R) /\ chained (thinned t) l im R /\ le_img R im) /\
  (exists R, thick_list t junk cs l im out = Some (1, R) /\ chained (thickened t) l im R /\ le_img im R).
Proof.
  intros t junk cs l im out HC HL. pose proof HC as (Gi & Ti & Wo & So & Hl). split.
  - destruct (thin_list_any t junk l im out HC cs im out) as (R & E & HR); auto. exists R. split; [exact E|]. split; [exact HR|]. eapply thins_le; [apply Gi|exact HR].
  - destruct (thick_list_any t junk l im out HC cs im out) as (R & E & HR); auto. exists R. split; [exact E|]. split; [exact HR|]. eapply thicks_ge; [apply Gi|exact HR].
Qed.
Print Assumptions C35_lists.

Lemma chain_passes t (R : compse -> img -> img -> Prop) l n im a :
  (forall c x y, R c x y -> sz y = sz x /\ wf_img y) -> (forall c x y, wf_img x -> typed_img t x -> R c x y -> typed_img t y) ->
  wf_img im -> typed_img t im -> passes n (chained R l) im a -> sz a = sz im /\ wf_img a /\ typed_img t a.
Proof.
  intros HS HT W T. revert a. induction n as [|n IH]; intros a HP; cbn in HP; [subst; auto|]. destruct HP as (b & Hb & HP). destruct (IH b Hb) as (Sb & Wb & Tb).
  destruct (chained_shape R HS l b a Wb HP) as (Sa & Wa). split; [congruence|]. split; [exact Wa|]. exact (chained_typed t R HS HT l b a Wb Tb HP).
Qed.

(** C35.  fullThin and fullThick terminate; the result is that of some number of passes, and one more pass, under any
    execution, leaves it unchanged. *)
Theorem C35_fullThin : forall t junk junk' cs cs' fuel l im out,
  hom_call t l im out -> (forall h i j k, legal_conf (dh (sz im)) (cs h i j k)) -> exact_volumes t (sz im) -> vol_enough t (sz im) fuel ->
  (forall i j k, legal_conf (dh (sz im)) (cs' i j k)) ->
  exists n R, fullThin t junk cs fuel l im out = Some (Some (1, R)) /\ passes (S n) (chained (thinned t) l) im R /\ le_img R im /\
    forall out', sz out' = sz im -> thin_list t junk' cs' l R out' = Some (1, R).
Proof.
  intros t junk junk' cs cs' fuel l im out HC HL Ev Hf HL'. destruct (fullThin_ok t junk l im out HC cs HL Ev fuel Hf) as (n & R & E & HP & HF & L). exists n, R. repeat (split; [assumption|]). intros out' So'.
  pose proof HC as (Gi & Ti & _). destruct (chain_passes t (thinned t) l (S n) im R (thinned_shape t) (thinned_typed t) (proj1 Gi) Ti HP) as (SR & WR & TR).
  destruct (thin_list_any t junk' l im out HC cs' R out') as (R' & E' & HR'); auto; [eapply good_sz; eassumption|]. rewrite E'. do 2 f_equal.
  exact (chained_fun (thinned t) (thinned_shape t) (thinned_fun t) l R R' R WR HR' HF).
Qed.
Print Assumptions C35_fullThin.

Theorem C35_fullThick : forall t junk junk' cs cs' fuel l im out,
  hom_call t l im out -> (forall h i j k, legal_conf (dh (sz im)) (cs h i j k)) -> exact_volumes t (sz im) -> vol_enough t (sz im) fuel ->
  (forall i j k, legal_conf (dh (sz im)) (cs' i j k)) ->
  exists n R, fullThick t junk cs fuel l im out = Some (Some (1, R)) /\ passes (S n) (chained (thickened t) l) im R /\ le_img im R /\
    forall out', sz out' = sz im -> thick_list t junk' cs' l R out' = Some (1, R).
Proof.
  intros t junk junk' cs cs' fuel l im out HC HL Ev Hf HL'. destruct (fullThick_ok t junk l im out HC cs HL Ev fuel Hf) as (n & R & E & HP & HF & L). exists n, R. repeat (split; [assumption|]). intros out' So'.
  pose proof HC as (Gi & Ti & _). destruct (chain_passes t (thickened t) l (S n) im R (thickened_shape t) (thickened_typed t) (proj1 Gi) Ti HP) as (SR & WR & TR).
  destruct (thick_list_any t junk' l im out HC cs' R out') as (R' & E' & HR'); auto; [eapply good_sz; eassumption|]. rewrite E'. do 2 f_equal.
  exact (chained_fun (thickened t) (thickened_shape t) (thickened_fun t) l R R' R WR HR' HF).
Qed.
Print Assumptions C35_fullThick.

(** A horizontal bar and elements of the square grid. *)
Definition bar : img := Img (Dims 5 4 1) [0;0;0;0;0; 0;255;255;255;0; 0;255;255;255;0; 0;0;0;0;0].
Definition sL1_4 : list compse := match HMT_sL1 4 with Some l => l | None => [] end.

Ltac good_elt := split; [discriminate|]; split; [cbn; lia|]; split; [|split; [|discriminate]]; intros p Hp; vm_compute in Hp; repeat (destruct Hp as [<-|Hp]; [vm_compute; split; discriminate|]); destruct Hp.
Ltac all_pixels := apply Forall_forall; intros v Hv; vm_compute in Hv; repeat (destruct Hv as [<-|Hv]; [vm_compute; split; discriminate|]); destruct Hv.
Lemma bar_good : good_img bar. Proof. apply good_ex; [split; [repeat split; cbn; lia|reflexivity]|cbn; lia|cbn; lia|cbn; lia]. Qed.
Lemma bar_typed : typed_img UINT8 bar. Proof. all_pixels. Qed.
Lemma binary_list t im : Forall (fun v => v = tmin t \/ v = tmax t) (pixs im) -> binary t im.
Proof. intros H x y z v (_ & E). rewrite Forall_forall in H. apply H. eapply rd_In. exact E. Qed.
Lemma bar_binary : binary UINT8 bar.
Proof. apply binary_list. cbn [bar pixs]. repeat (constructor; [solve [left; reflexivity|right; reflexivity]|]). constructor. Qed.
Lemma bar_elements : Forall (good_comp (sz bar)) sL1_4.
Proof. let l := eval vm_compute in sL1_4 in change sL1_4 with l. repeat (constructor; [split; good_elt|]). constructor. Qed.

Example C35_case : hom_call UINT8 sL1_4 bar bar /\ binary UINT8 bar /\ exact_volumes UINT8 (sz bar) /\ vol_enough UINT8 (sz bar) (Z.to_nat 6000) /\
  Forall (fun c => se_size (fst c) = 1 /\ se_size (snd c) = 1) sL1_4 /\
  hitOrMiss_list UINT8 (fun _ => 0) (fun _ _ => one_thread) 0 sL1_4 false bar bar = Some (1, Img (Dims 5 4 1) [0;0;0;0;0; 0;0;255;0;0; 0;0;255;0;0; 0;0;0;0;0]) /\
  fullThin UINT8 (fun _ => 0) (fun _ _ _ => one_thread) 7 sL1_4 bar bar = Some (Some (1, Img (Dims 5 4 1) [0;0;0;0;0; 0;255;255;255;0; 0;255;0;255;0; 0;0;0;0;0])).
Proof.
  split; [|split; [exact bar_binary|]].
  { split; [exact bar_good|]. split; [exact bar_typed|]. split; [apply bar_good|]. split; [reflexivity|exact bar_elements]. }
  split; [vm_compute; discriminate|]. split; [vm_compute; reflexivity|]. split; [|split; vm_compute; reflexivity].
  let l := eval vm_compute in sL1_4 in change sL1_4 with l. repeat (constructor; [split; reflexivity|]). constructor.
Qed.

(** The skeleton by influence zones thins the negative of the image by the hexagonal L elements, then by the M elements,
    each until nothing changes. *)
Theorem C35_skiz : forall t junk cs1 cs2 fuel im out hL hM,
  good_img im -> typed_img t im -> sz out = sz im -> 2 <= dw (sz im) -> dd (sz im) = 1 -> exact_volumes t (sz im) -> vol_enough t (sz im) fuel ->
  (forall h i j k, legal_conf (dh (sz im)) (cs1 h i j k)) -> (forall h i j k, legal_conf (dh (sz im)) (cs2 h i j k)) ->
  HMT_hL 6 = Some hL -> HMT_hM 6 = Some hM ->
  exists n m N L R, skiz t junk cs1 cs2 fuel im out = Some (Some (1, R)) /\ negative t im N /\
    passes (S n) (chained (thinned t) hL) N L /\ chained (thinned t) hL L L /\ passes (S m) (chained (thinned t) hM) L R /\ chained (thinned t) hM R R /\ le_img R N.
Proof.
  intros t junk cs1 cs2 fuel im out hL hM Gi Ti So Hw Hd Ev Hf HL1 HL2 EL EM.
  assert (GL : Forall (good_comp (sz im)) hL /\ Forall (good_comp (sz im)) hM).
  { vm_compute in EL, EM. injection EL as <-. injection EM as <-.
    assert (K : forall pts, pts <> [] -> (forall p, In p pts -> -1 <= px_ p <= 1 /\ pz_ p = 0) -> (forall p, In p (se_points (transpose (SE true SE_Generic 1 pts))) -> -1 <= px_ p <= 1) -> good_se (SE true SE_Generic 1 pts) (sz im)).
    { intros pts Np Hp Hp'. split; [exact Np|]. split; [cbn; lia|]. split; [|split].
      - intros p Hip. destruct (Hp p Hip). cbn [se_odd bit]. lia.
      - intros p Hip. pose proof (Hp' p Hip). cbn [se_odd transpose bit]. lia.
      - intros _. split; [exact Hd|]. intros p Hip. apply (Hp p Hip). }
    split; repeat (constructor; [split; (apply K; [discriminate| |]; intros p Hp; vm_compute in Hp; repeat (destruct Hp as [<-|Hp]; [cbn; repeat split; lia|]); destruct Hp)|]); constructor. }
  destruct GL as (GL & GM). unfold skiz. rewrite same_size_true by congruence. cbn [negb]. rewrite EL, EM. cbn [option_bind].
  destruct (pw1_spec (px_inv t) im (proj1 Gi)) as (SN & WN & HN). assert (GN : good_img (pw1 (px_inv t) im)) by (eapply good_sz; eassumption).
  assert (NN : negative t im (pw1 (px_inv t) im)).
  { split; [exact SN|]. split; [exact WN|]. intros x y z v Hv. pose proof (HN _ _ _ _ Hv) as Q. rewrite px_inv_eq in Q by (eapply typed_is; eassumption). replace (tmin t + tmax t - v) with (tmax t + tmin t - v) by lia. exact Q. }
  assert (TN : typed_img t (pw1 (px_inv t) im)).
  { apply typed_pix; [exact WN|]. intros x y z v Hv. destruct (pixel_exists im x y z (proj1 Gi)) as (u & Hu); [rewrite <- SN; apply Hv|]. rewrite (pixel_is_fun _ _ _ _ _ _ Hv (HN _ _ _ _ Hu)), px_inv_eq by (eapply typed_is; eassumption).
    pose proof (typed_is _ _ _ _ _ _ Ti Hu). unfold inty in *. lia. }
  destruct (fullThin_ok t junk hL (pw1 (px_inv t) im) (new_img junk im)) with (cs := cs1) (fuel := fuel) as (n & L & E1 & P1 & F1 & L1); try (rewrite SN; assumption).
  { split; [exact GN|]. split; [exact TN|]. split; [apply wf_junk; apply Gi|]. split; [exact (eq_sym SN)|rewrite SN; exact GL]. }
  destruct (chain_passes t (thinned t) hL (S n) _ L (thinned_shape t) (thinned_typed t) WN TN P1) as (SL & WL & TL). assert (GdL : good_img L) by (eapply good_sz; eassumption).
  rewrite E1. cbn [fuel_bind snd].
  destruct (fullThin_ok t junk hM L (pw1 (px_inv t) im)) with (cs := cs2) (fuel := fuel) as (m & R & E2 & P2 & F2 & L2); try (rewrite SL, SN; assumption).
  { split; [exact GdL|]. split; [exact TL|]. split; [exact WN|]. split; [exact (eq_sym SL)|rewrite SL, SN; exact GM]. }
  rewrite E2. cbn [fuel_bind snd]. exists n, m, (pw1 (px_inv t) im), L, R. repeat (split; [first [reflexivity|assumption]|]). eapply le_img_trans; [exact WL| |exact L2|exact L1]. symmetry. apply (chain_passes t (thinned t) hM (S m) L R (thinned_shape t) (thinned_typed t) WL TL P2).
Qed.
Print Assumptions C35_skiz.

(** Images of different sizes are refused and imOut left as it is. *)
Theorem C35_sizes : forall t junk cs cs1 cs2 fuel bv fg bg l alias imIn imOut, sz imIn <> sz imOut ->
  hitOrMiss t junk cs bv fg bg alias imIn imOut = Some (-98, imOut) /\ hitOrMiss_list t junk cs1 bv l alias imIn imOut = Some (-98, imOut) /\
  thin t junk cs fg bg imIn imOut = Some (-98, imOut) /\ thick t junk cs fg bg imIn imOut = Some (-98, imOut) /\
  thin_list t junk cs1 l imIn imOut = Some (-98, imOut) /\ thick_list t junk cs1 l imIn imOut = Some (-98, imOut) /\
  fullThin t junk cs2 fuel l imIn imOut = Some (Some (-98, imOut)) /\ fullThick t junk cs2 fuel l imIn imOut = Some (Some (-98, imOut)).
Proof.
  intros t junk cs cs1 cs2 fuel bv fg bg l alias imIn imOut Ne. unfold hitOrMiss, hitOrMiss_list, thin, thick, thin_list, thick_list, fullThin, fullThick, full.
  assert (same_size imIn imOut = false) as ->; [|repeat split; reflexivity]. destruct (same_size imIn imOut) eqn:E; [|reflexivity]. exfalso. apply Ne. destruct imIn as [[a b c] ?], imOut as [[a' b' c'] ?]. unfold same_size in E. cbn in *. rewrite !andb_true_iff in E. destruct E as ((?%Z.eqb_eq & ?%Z.eqb_eq) & ?%Z.eqb_eq). congruence.
Qed.
Print Assumptions C35_sizes.

(** ** C55.  In place, hitOrMiss does not compute the hit-or-miss transform: neither with one element nor with a list. *)
Theorem C55_in_place_refuted : exists t junk cs cs1 fg bg im H H',
  hom_call t [(fg, bg)] im im /\ (forall j k, legal_conf (dh (sz im)) (cs j k)) /\ (forall i j k, legal_conf (dh (sz im)) (cs1 i j k)) /\
  hitOrMiss t junk cs (tmin t) fg bg true im im = Some (1, H) /\ ~ hit_by t (tmin t) (fg, bg) im H /\
  hitOrMiss_list t junk cs1 (tmin t) [(fg, bg)] true im im = Some (1, H') /\ ~ hits_any t (tmin t) [(fg, bg)] im H'.
Proof.
  exists UINT8, (fun _ => 0), (fun _ => one_thread), (fun _ _ => one_thread), (elt false [0; 1]), (elt false [5]), bar. eexists _, _.
  assert (HC : hom_call UINT8 [(elt false [0; 1], elt false [5])] bar bar).
  { split; [exact bar_good|]. split; [exact bar_typed|]. split; [apply bar_good|]. split; [reflexivity|]. constructor; [split; good_elt|constructor]. }
  split; [exact HC|]. assert (L : forall k, legal_conf (dh (sz bar)) (one_thread k)) by (intros; apply one_thread_legal; cbn; lia). split; [intros; apply L|]. split; [intros; apply L|].
  destruct (C35_hitOrMiss UINT8 (fun _ => 0) (fun _ => one_thread) 0 _ _ _ _ HC ltac:(intros; apply L)) as (H & E & HH).
  destruct (C35_hitOrMiss_list UINT8 (fun _ => 0) (fun _ _ => one_thread) 0 _ _ _ HC ltac:(intros; apply L)) as (H' & E' & HH' & _).
  vm_compute in E. injection E as <-. vm_compute in E'. injection E' as <-.
  split; [vm_compute; reflexivity|]. split; [intros N; pose proof (hit_fun _ _ _ _ _ _ (proj1 bar_good) N HH); discriminate|].
  split; [vm_compute; reflexivity|]. intros (_ & _ & N). destruct HH' as (_ & _ & HH').
  destruct (N 1 1 0 0) as (_ & N1); [split; [repeat split; cbn; lia|reflexivity]|]. destruct (HH' 1 1 0 255) as (_ & N2); [split; [repeat split; cbn; lia|reflexivity]|].
  assert (255 <= 0); [|lia]. apply N1. right. exists (elt false [0; 1], elt false [5]). eexists. split; [left; reflexivity|]. split; [exact HH|]. split; [repeat split; cbn; lia|reflexivity].
Qed.
Print Assumptions C55_in_place_refuted.

(** ** C56.  A list of [n] rotations holds the elements turned by 0, s, ..., (n-1)s steps, s being the n-th of the circle;
    when n divides the circle, one more step brings back to the first element. *)
Theorem C56_rotations_partial : forall l fg bg n,
  Forall (near (se_odd fg)) (se_points fg) -> Forall (near (se_odd fg)) (se_points bg) -> se_odd bg = se_odd fg -> 0 < n ->
  exists s, s = Z.to_nat ((if se_odd fg then 6 else 8) / n) /\
    add_nrot l fg bg n = Some (l ++ map (fun i => (turned (i * s) fg, turned (i * s) bg)) (seq 0 (Z.to_nat n))) /\
    ((n | if se_odd fg then 6 else 8) -> turned (Z.to_nat n * s) fg = fg /\ turned (Z.to_nat n * s) bg = bg).
Proof.
  intros l fg bg n Hf Hb Ho Hn. eexists. split; [reflexivity|].
  assert (Nf : near_se fg) by exact Hf. assert (Nb : near_se bg) by (unfold near_se; rewrite Ho; exact Hb). split; [exact (add_nrot_ok l fg bg n Nf Nb Ho Hn)|].
  intros (k & Ek). assert (Ec : (Z.to_nat n * Z.to_nat ((if se_odd fg then 6 else 8) / n) = 1 * Z.to_nat (circle (se_odd fg)))%nat).
  { rewrite Ek, Z.div_mul by lia. unfold circle. rewrite Ek. destruct (se_odd fg); nia. }
  rewrite Ec. split; [apply turned_circles; exact Nf|]. rewrite <- Ho. apply turned_circles. exact Nb.
Qed.
Print Assumptions C56_rotations_partial.

(** A rotation keeps the number of points, sends the centre to itself and a neighbour to a neighbour, and a whole circle
    of rotations is the identity, no smaller number of them is. *)
Theorem C56_turn : forall odd p, near odd p ->
  near odd (turn odd p) /\ (turn odd p = (0, 0, 0) <-> p = (0, 0, 0)) /\
  forall k, Nat.iter k (turn odd) p = p <-> p = (0, 0, 0) \/ (exists m, k = (m * if odd then 6 else 8)%nat).
Proof.
  intros odd p Hp. split; [apply near_turn; exact Hp|]. pose proof (proj1 (near_In odd p) Hp) as Hi. split.
  - destruct odd; vm_compute in Hi; repeat (destruct Hi as [<-|Hi]; [vm_compute; split; intros E; (reflexivity || discriminate E)|]); destruct Hi.
  - intros k. pose (c := if odd then 6%nat else 8%nat). change (if odd then 6%nat else 8%nat) with c. pose proof (Nat.div_mod_eq k c) as D.
    assert (Hc : (0 < c)%nat) by (unfold c; destruct odd; lia). pose proof (Nat.mod_upper_bound k c ltac:(lia)) as B.
    assert (E : Nat.iter k (turn odd) p = Nat.iter (k mod c) (turn odd) p).
    { transitivity (Nat.iter (k mod c + (k / c) * Z.to_nat (circle odd)) (turn odd) p).
      - f_equal. assert (Z.to_nat (circle odd) = c) as -> by (unfold c, circle; destruct odd; reflexivity). lia.
      - rewrite iter_add. f_equal. apply circles_id. exact Hp. }
    rewrite E. assert (K : Nat.iter (k mod c) (turn odd) p = p <-> p = (0, 0, 0) \/ (k mod c = 0)%nat).
    { clear E D. revert B. generalize (k mod c)%nat as j. unfold c. clear c Hc Hp. intros j Hj. destruct odd; vm_compute in Hi;
      repeat (destruct Hi as [<-|Hi]; [do 8 (destruct j as [|j]; [first [exfalso; clear - Hj; lia|vm_compute; split; [intros Ej; first [discriminate Ej|left; reflexivity|right; reflexivity]|intros [Ej|Ej]; first [discriminate Ej|reflexivity]]]|]); exfalso; clear - Hj; lia|]); destruct Hi. }
    rewrite K. split; (intros [G|G]; [left; exact G|right]).
    + exists (k / c)%nat. lia.
    + destruct G as (m & ->). apply Nat.mod_mul. lia.
Qed.
Print Assumptions C56_turn.

(** C56, as stated for all the predefined elements and all numbers of rotations, is false. *)
Theorem C56_rotations_refuted :
  (exists c d l, HMT_hS2 6 = Some (c :: d :: l) /\ forall k, snd d <> turned k (snd c)) /\
  (exists c l, HMT_sL1 5 = Some (c :: l) /\ length (c :: l) = 5%nat /\ forall d, In d (c :: l) -> fst d <> turned 6 (fst c)) /\
  HMT_sL1 0 = None.
Proof.
  split; [|split; [|reflexivity]].
  - exists (elt true [2; 4; 5; 6], elt false [0; 1; 3]), (elt true [3; 5; 6; 1], SE false SE_Generic 1 [(0, 0, 0); (0, -1, 0); (-1, -1, 0)]), (match HMT_hS2 6 with Some l => tl (tl l) | None => [] end). split; [vm_compute; reflexivity|]. intros k H. cbn [snd] in H.
    assert (exists j, (j < 8)%nat /\ turned (k) (elt false [0; 1; 3]) = turned j (elt false [0; 1; 3])) as (j & Hj & Ej).
    { exists (k mod 8)%nat. split; [apply Nat.mod_upper_bound; lia|]. pose proof (Nat.div_mod_eq (k) 8) as D.
      replace (k) with (k mod 8 + (k / 8) * Z.to_nat (circle false))%nat at 1 by (change (Z.to_nat (circle false)) with 8%nat; lia). rewrite <- turned_add. f_equal.
      apply (turned_circles (k / 8) (elt false [0; 1; 3])). vm_compute. repeat (constructor; [repeat split; discriminate|]). constructor. }
    rewrite Ej in H. do 8 (destruct j as [|j]; [vm_compute in H; discriminate H|]). lia.
  - eexists _, _. split; [vm_compute; reflexivity|]. split; [reflexivity|]. intros d Hd. vm_compute in Hd. repeat (destruct Hd as [<-|Hd]; [vm_compute; discriminate|]). destruct Hd.
Qed.
Print Assumptions C56_rotations_refuted.

Example C56_case : Forall (near true) (se_points (elt true [1; 2])) /\ Forall (near true) (se_points (elt true [4; 5])) /\
  HMT_hL 3 = Some [(elt true [1; 2], elt true [4; 5]); (elt true [3; 4], elt true [6; 1]); (elt true [5; 6], elt true [2; 3])].
Proof. split; [|split; [|vm_compute; reflexivity]]; vm_compute; repeat (constructor; [repeat split; discriminate|]); constructor. Qed.

(** ** C57.  The skeleton is the highest residue of the opening of the image and of all its erosions: false, the image
    itself is left out, and the loop stops at the first erosion that adds nothing. *)
Definition sq5 : img := Img (Dims 7 7 1) [0;0;0;0;0;0;0; 0;255;255;255;255;255;0; 0;255;255;255;255;255;0; 0;255;255;255;255;255;0; 0;255;255;255;255;255;0; 0;255;255;255;255;255;0; 0;0;0;0;0;0;0].
Definition sq3 : img := Img (Dims 7 7 1) [0;0;0;0;0;0;0; 0;0;0;0;0;0;0; 0;0;255;255;255;0;0; 0;0;255;255;255;0;0; 0;0;255;255;255;0;0; 0;0;0;0;0;0;0; 0;0;0;0;0;0;0].
Definition sq0 : img := Img (Dims 7 7 1) (repeat 0 49).
Lemma squ_good : good_se (SquSE 1) (Dims 7 7 1).
Proof. split; [split; [reflexivity|tauto]|]. split; [cbn; lia|]. split; [cbn; lia|]. split; [cbn; lia|discriminate]. Qed.
Theorem C57_skeleton_refuted : exists t junk cs se im R,
  is_signed t = false /\ good_img im /\ typed_img t im /\ good_se se (sz im) /\ (forall i j k, legal_conf (dh (sz im)) (cs i j k)) /\
  (forall fuel, (0 < fuel)%nat -> skeleton t junk cs fuel se im im = Some (Some (1, R))) /\ (forall x y z v, pixel_is R x y z v -> v = 0) /\ ~ skeleton_of t se im R.
Proof.
  assert (G5 : good_img sq5) by (apply good_ex; [split; [repeat split; cbn; lia|reflexivity]|cbn; lia|cbn; lia|cbn; lia]).
  assert (G3 : good_img sq3) by (apply good_ex; [split; [repeat split; cbn; lia|reflexivity]|cbn; lia|cbn; lia|cbn; lia]).
  assert (T5 : typed_img UINT8 sq5) by all_pixels. assert (T3 : typed_img UINT8 sq3) by all_pixels.
  assert (L : forall i j k : nat, legal_conf (dh (sz sq5)) ((fun _ _ => one_thread) i j k)) by (intros; apply one_thread_legal; cbn; lia).
  exists UINT8, (fun _ => 0), (fun _ _ => one_thread), (SquSE 1), sq5, sq0.
  split; [reflexivity|]. split; [exact G5|]. split; [exact T5|]. split; [exact squ_good|]. split; [exact L|]. split; [|split].
  - intros fuel Hf. destruct fuel as [|fuel]; [lia|]. unfold skeleton. cbn [skeleton_loop].
    assert (skeleton_turn UINT8 (fun _ => 0) ((fun _ _ => one_thread) 0%nat) (SquSE 1) sq5 (pw1 (fun _ => tmin UINT8) sq5) = Some (true, (sq3, sq0))) as E by (vm_compute; reflexivity).
    rewrite E. reflexivity.
  - intros x y z v (_ & E). apply rd_In in E. cbn in E. intuition.
  - intros (_ & _ & H). destruct (H 3 3 0 0) as (_ & N); [split; [repeat split; cbn; lia|reflexivity]|].
    destruct (turn_ok UINT8 (fun _ => 0) (fun _ _ => one_thread) (SquSE 1) sq5 eq_refl squ_good L 0 sq5 sq0 G5 eq_refl T5) as (E1 & D1 & EQ1 & P1 & _).
    destruct (turn_ok UINT8 (fun _ => 0) (fun _ _ => one_thread) (SquSE 1) sq5 eq_refl squ_good L 0 sq3 sq0 G3 eq_refl T3) as (E2 & D2 & EQ2 & P2 & R2 & _ & TD).
    assert (E1 = sq3) as ->. { remember (pw2 px_sup sq0 D1) as q. vm_compute in EQ1. injection EQ1. auto. }
    assert (ED : pw2 px_sup sq0 D2 = Img (Dims 7 7 1) (upd (repeat 0 49) 24 255)).
    { remember (pw2 px_sup sq0 D2) as q. vm_compute in EQ2. injection EQ2. intros <- _ _. vm_compute. reflexivity. }
    destruct (residue_shape _ _ _ _ R2) as (S2 & W2). destruct (passes_eroded _ _ _ _ _ (proj1 G3) P2) as (SE2 & _).
    destruct (pixel_exists D2 3 3 0 W2) as (d & Hd); [rewrite S2, SE2; repeat split; cbn; lia|].
    assert (S3 : sz sq0 = sz D2) by (rewrite S2, SE2; reflexivity).
    assert (H0 : pixel_is sq0 3 3 0 0) by (split; [repeat split; cbn; lia|reflexivity]). pose proof (pw2_is px_sup sq0 D2 3 3 0 0 d H0 Hd S3) as P. rewrite ED, px_sup_max in P.
    assert (P' : pixel_is (Img (Dims 7 7 1) (upd (repeat 0 49) 24 255)) 3 3 0 255) by (split; [repeat split; cbn; lia|reflexivity]). pose proof (pixel_is_fun _ _ _ _ _ _ P P') as Q.
    assert (d <= 0); [|lia]. apply N. exists 2%nat, E2, D2. split; [|split; assumption]. exists sq3. split; [|exact P2]. exists sq5. split; [reflexivity|exact P1].
Qed.
Print Assumptions C57_skeleton_refuted.

(** C57.  What it is: for some n, the highest residue of the erosions 1 to n, n being the first erosion after which the
    next one adds nothing.  It is below the image when the element holds its origin. *)
Theorem C57_skeleton_partial : forall t junk cs se im out fuel,
  is_signed t = false -> good_img im -> typed_img t im -> good_se se (sz im) -> (forall i j k, legal_conf (dh (sz im)) (cs i j k)) ->
  wf_img out -> sz out = sz im -> vol_enough t (sz im) fuel ->
  exists n R, skeleton t junk cs fuel se im out = Some (Some (1, R)) /\ residues_to t se n im R /\ residues_to t se (S n) im R /\
    (forall i Q, (i < n)%nat -> residues_to t se i im Q -> ~ residues_to t se (S i) im Q) /\ (In (0, 0, 0) (se_points se) -> le_img R im).
Proof.
  intros t junk cs se im out fuel HU Gi Ti HG HL Wo So Hf. destruct (skeleton_ok t junk cs se im HU Gi Ti HG HL fuel out Wo So Hf) as (n & R & E & H1 & H2 & H3).
  exists n, R. repeat (split; [assumption|]). intros Ho. eapply (residues_le t junk cs); eauto.
Qed.
Print Assumptions C57_skeleton_partial.
Example C57_case : good_img sq5 /\ typed_img UINT8 sq5 /\ good_se (SquSE 1) (sz sq5) /\ vol_enough UINT8 (sz sq5) (Z.to_nat 13000) /\
  skeleton UINT8 (fun _ => 0) (fun _ _ => one_thread) 5 (CrossSE 1) sq5 sq5 = Some (Some (1, Img (Dims 7 7 1) (map (fun i => if (i =? 16) || (i =? 18) || (i =? 30) || (i =? 32) || (i =? 24) then 255 else 0) (zseq 49)))).
Proof.
  split; [apply good_ex; [split; [repeat split; cbn; lia|reflexivity]|cbn; lia|cbn; lia|cbn; lia]|]. split; [all_pixels|]. split; [exact squ_good|]. split; vm_compute; reflexivity.
Qed.
