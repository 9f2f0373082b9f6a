(** Extinction values: dynamics, areas, volumes and ranks. *)
From Verif Require Export Proofs.ExtinctionProofs6.
Local Notation "l # i" := (znth 0 l i) (at level 9).
Local Notation zone := ExtinctionProofs3.zone.

Section At.
Context (k : criterion) (t t2 te : ity) (se : strelt) (im markers : img).
Notation s := (sz im).
Notation px := (pixs im).
Notation m := (pixs markers).
Notation N := (dw s * dh s * dd s).
Notation off := (voxel_offset (dw s) (dh s)).
Context (F : flood_ok t t2 se im markers) (T0 : tmin t2 = 0) (Hlt : forall x y z l, pixel_is markers x y z l -> l < tmax t2).
Context (Hy : symmetric_se se) (Lz : labels_zones se (is_min t se im) im markers).

(** The value belongs to every pixel of the marker. *)
Lemma zQ_at d' e : 0 <= d' < N -> m # d' <> 0 -> zQ k t te se im markers m # d' e ->
  exists h f, 0 <= f < N /\ m # f <> 0 /\ m # f <> m # d' /\ walk se im h d' f /\ h <= tmax t /\
  match k with
  | ByDynamic => e = wrap te (h - px # d') /\ px # f <= px # d' /\ (forall p, walk se im (h - 1) d' p -> px # d' <= px # p)
  | ByArea => exists S S', NoDup (S ++ S') /\ zone se im h d' S /\ zone se im h f S' /\ e = wrap te (size_of S) /\ size_of S <= size_of S'
  | ByVolume => exists S S', NoDup (S ++ S') /\ zone se im h d' S /\ zone se im h f S' /\ e = wrap te (vol_of im h S) /\ vol_of im h S <= vol_of im h S'
  end.
Proof.
  intros Hd' Hm (h & d & f & Hd & Ed & Hf & Nf & Nfe & Wk & HM & K). destruct (M1 t t2 se im markers F Hlt Lz d' d Hd' Hd Hm ltac:(congruence)) as (W1 & Ev).
  assert (Tr : forall h' p, walk se im h' d' p -> walk se im h' d p).
  { intros h' p Wp. destruct (walk_range se im _ _ _ Wp) as ((_ & Hv) & _). eapply walk_trans; [|exact Wp]. apply (walk_sym se im (ways t t2 se im markers F Hy)). eapply (walk_mono t2 se im markers Hlt); [exact Hv|exact W1]. }
  assert (Tr' : forall h' p, walk se im h' d p -> walk se im h' d' p).
  { intros h' p Wp. destruct (walk_range se im _ _ _ Wp) as ((_ & Hv) & _). eapply walk_trans; [|exact Wp]. eapply (walk_mono t2 se im markers Hlt); [|exact W1]. lia. }
  assert (Zn : forall S, zone se im h d S -> zone se im h d' S) by (intros S (A & B); split; [intros p Wp; apply A; apply Tr; exact Wp|intros p Hp; apply Tr'; apply B; exact Hp]).
  exists h, f. split; [exact Hf|]. split; [exact Nf|]. split; [exact Nfe|]. split; [apply Tr'; exact Wk|]. split; [exact HM|]. destruct k.
  - destruct K as (S & S' & A & B & C). exists S, S'. split; [exact A|]. split; [apply Zn; exact B|exact C].
  - destruct K as (S & S' & A & B & C). exists S, S'. split; [exact A|]. split; [apply Zn; exact B|exact C].
  - destruct K as (A & B & C). rewrite Ev. split; [exact A|]. split; [exact B|]. intros p Wp. apply C. apply Tr. exact Wp.
Qed.

(** Zones and lakes. *)
Lemma zone_range h d S p : zone se im h d S -> In p S -> 0 <= p < N.
Proof. intros (_ & B) Hp. apply (walk_range se im _ _ _ (B p Hp)). Qed.

Lemma zone_lake h x y z S : inside s x y z -> zone se im h (off x y z) S -> lake se im h x y z (map (spot s) S).
Proof.
  intros I Zn. pose proof Zn as (A & B). split.
  - intros x' y' z' J. assert (I' : inside s x' y' z') by (inversion J as [? ? ? ? _ (I' & _) _|? ? ? ? ? ? ? _ _ (I' & _) _]; exact I').
    apply (zone_walk t2 se im markers Hlt) in J. apply A in J. apply in_map_iff. exists (off x' y' z'). split; [apply spot_off; exact I'|exact J].
  - intros x' y' z' Hin. apply in_map_iff in Hin as (p & Ep & Hp). destruct (at_off t t2 se im markers F p (zone_range _ _ _ _ Zn Hp)) as (a & b & c & I' & Eo & _). rewrite Eo, spot_off in Ep by exact I'. injection Ep as <- <- <-.
    apply (walk_zone t t2 se im markers F h (off x y z) p (B p Hp)); auto.
Qed.

Lemma spots_nodup S : (forall p, In p S -> 0 <= p < N) -> NoDup S -> NoDup (map (spot s) S).
Proof.
  intros H ND. induction ND as [|p S Hp ND IH]; [constructor|]. cbn [map]. constructor; [|apply IH; intros; apply H; right; assumption].
  intros Hin. apply in_map_iff in Hin as (q & Eq & Hq). destruct (at_off t t2 se im markers F p (H p (or_introl eq_refl))) as (a & b & c & I & Ep & _). destruct (at_off t t2 se im markers F q (H q (or_intror Hq))) as (a' & b' & c' & I' & Eq' & _).
  rewrite Ep, Eq', !spot_off in Eq by assumption. injection Eq as -> -> ->. apply Hp. congruence.
Qed.

Lemma spots_water h S : (forall p, In p S -> 0 <= p < N) -> water im h (map (spot s) S) (vol_of im h S).
Proof.
  intros H. exists (map (fun p => px # p) S). split.
  - induction S as [|p S IH]; [constructor|]. cbn [map]. constructor; [|apply IH; intros; apply H; right; assumption].
    destruct (at_off t t2 se im markers F p (H p (or_introl eq_refl))) as (a & b & c & I & Ep & P & _). replace (spot (sz im) p) with (a, b, c) by (rewrite Ep; symmetry; apply spot_off; exact I). exact P.
  - unfold vol_of. rewrite map_map, Zsum_fold. reflexivity.
Qed.
End At.

Lemma wrap_wrap t x : wrap t (wrap t x) = wrap t x.
Proof. apply wrap_id. apply IntsFacts.wrap_range. Qed.

Section Values.
Context (sort : (Z -> Z -> bool) -> list Z -> list Z) (fuel : nat) (t t2 t3 : ity) (se : strelt) (im markers out bas : img).
Context (MC : minima_call t t2 se im markers) (Hf : turns fuel im markers) (So : sz out = sz im) (Sb : sz bas = sz im).
Notation N := (dw (sz im) * dh (sz im) * dd (sz im)).

Lemma minima_values k : exists vals res l0 M ext, watershedExtinction sort fuel k t t2 t3 se false im markers out bas = Some (Some (-100, (vals, res))) /\ values_are t3 ext markers vals /\
  greatest_value im M /\ l0 <> 0 /\ (exists x y z, pixel_is markers x y z l0) /\
  (forall d, 0 <= d < N -> (pixs markers) # d <> 0 -> (pixs markers) # d <> l0 -> zQ k t t3 se im markers (pixs markers) # d ext # ((pixs markers) # d)) /\
  match k with
  | ByDynamic => forall d, 0 <= d < N -> (pixs markers) # d = l0 -> ext # l0 = wrap t3 (M - (pixs im) # d) /\ forall p, 0 <= p < N -> (pixs im) # d <= (pixs im) # p
  | ByArea => ext # l0 = wrap t3 N
  | ByVolume => ext # l0 = wrap t3 (Zsum (map (fun v => M - v + 1) (pixs im)) mod 2 ^ 32)
  end.
Proof.
  destruct MC as ((F & T0 & Hlt & Hex) & Hy & Co & Lz).
  destruct (minima_run t t2 se im markers F T0 Hlt Hex Hy Lz Co k t3 fuel None Hf) as (lbl & q & b' & g' & l0 & M & E & E2 & Le & (p & Hp & EM) & Mx & Hl0 & (d & Hd & Ed) & V & V0).
  destruct (values_run k t t2 t3 se im markers out bas fuel lbl b' g' F T0 Hlt So Sb sort E Le) as (vals & E3 & VA).
  exists vals, (Img (sz im) lbl), l0, M, (bd_ext b'). split; [exact E3|]. split; [exact VA|]. split; [|split; [exact Hl0|split; [|split; [exact V|exact V0]]]].
  - split.
    + destruct (at_off t t2 se im markers F p Hp) as (x & y & z & _ & _ & P & _). rewrite EM in P. eauto.
    + intros x y z v P. destruct (px_val (sz im) im _ _ _ _ eq_refl P) as (_ & Rg & <-). apply Mx. exact Rg.
  - destruct (at_off t t2 se im markers F d Hd) as (x & y & z & _ & _ & _ & P). rewrite Ed in P. eauto.
Qed.

(** ** C99: dynamics *)
Theorem ext_dynamics : tmin t3 = 0 -> tmax t <= tmax t3 ->
  exists vals res l0 M, watershedExtinction sort fuel ByDynamic t t2 t3 se false im markers out bas = Some (Some (-100, (vals, res))) /\
    greatest_value im M /\ l0 <> 0 /\ (exists x y z, pixel_is markers x y z l0) /\
    forall x y z l a v, pixel_is markers x y z l -> l <> 0 -> pixel_is im x y z a -> pixel_is vals x y z v ->
      (l <> l0 -> dynamic_of se im markers x y z l a v) /\
      (l = l0 -> v = M - a /\ forall x' y' z' c, pixel_is im x' y' z' c -> a <= c).
Proof.
  intros U3 Hw3. destruct (minima_values ByDynamic) as (vals & res & l0 & M & ext & E & (V1 & V2 & V3) & HM & Hl0 & Hx & V & V0). destruct MC as ((F & T0 & Hlt & Hex) & Hy & Co & Lz). pose proof F as (Ht & Wi & Wm & Sm & Ti & Tm & Hs & _). pose proof Wi as (_ & Li). unfold pixelCount in Li.
  assert (Tx : forall p, 0 <= p < N -> 0 <= (pixs im) # p <= tmax t) by (intros p Hp; pose proof (typed_at t (pixs im) p Ti ltac:(lia)) as Iy; unfold inty in Iy; destruct Ht as [->| ->]; cbn in *; lia).
  exists vals, res, l0, M. split; [exact E|]. split; [exact HM|]. split; [exact Hl0|]. split; [exact Hx|]. intros x y z l a v Pm Hl P Pv.
  destruct (px_val (sz im) im _ _ _ _ eq_refl P) as (I & Rg & Ea). destruct (px_val (sz im) markers _ _ _ _ Sm Pm) as (_ & _ & Em). pose proof (V3 _ _ _ _ Pm) as Pv'. replace (l =? 0) with false in Pv' by lia. rewrite (LoopFacts.pixel_is_fun _ _ _ _ _ _ Pv Pv'). clear Pv Pv' v. split.
  - intros Hne. pose proof (V _ Rg ltac:(congruence) ltac:(congruence)) as Q. apply (zQ_at ByDynamic t t2 t3 se im markers F Hlt Hy Lz _ _ Rg ltac:(congruence)) in Q as (h & f & Hf0 & Nf & Nfl & Wk & HhM & Eq & Lf & Lo).
    destruct (walk_range se im _ _ _ Wk) as ((_ & Hv) & _). pose proof (Tx _ Rg) as Ta. rewrite Em in Eq. rewrite Eq, wrap_wrap, wrap_id by (unfold inty; lia). rewrite Ea in *. replace (a + (h - a)) with h by lia.
    destruct (at_off t t2 se im markers F f Hf0) as (x' & y' & z' & I' & Ef & P' & Pm'). unfold dynamic_of. replace (a + (h - a)) with h by lia. split.
    + exists x', y', z', ((pixs markers) # f), ((pixs im) # f). split; [exact Pm'|]. split; [exact Nf|]. split; [congruence|]. split; [exact P'|]. split; [exact Lf|]. apply (walk_zone t t2 se im markers F h _ _ Wk); auto.
    + intros x2 y2 z2 c J P2. destruct (px_val (sz im) im _ _ _ _ eq_refl P2) as (_ & _ & <-). apply Lo. apply (zone_walk t2 se im markers Hlt). exact J.
  - intros ->. destruct (V0 _ Rg ltac:(congruence)) as (Ev & Lo). rewrite Ev, Ea, wrap_wrap.
    destruct HM as ((xm & ym & zm & PM) & Mx). destruct (px_val (sz im) im _ _ _ _ eq_refl PM) as (_ & RM & EM). pose proof (Tx _ RM). pose proof (Tx _ Rg). pose proof (Mx _ _ _ _ P). rewrite wrap_id by (unfold inty; lia). split; [reflexivity|].
    intros x2 y2 z2 c P2. destruct (px_val (sz im) im _ _ _ _ eq_refl P2) as (_ & R2 & <-). rewrite <- Ea. apply Lo. exact R2.
Qed.

(** ** C100: areas and volumes *)
Theorem ext_areas : exists vals res l0, watershedExtinction sort fuel ByArea t t2 t3 se false im markers out bas = Some (Some (-100, (vals, res))) /\
    l0 <> 0 /\ (exists x y z, pixel_is markers x y z l0) /\
    forall x y z l v, pixel_is markers x y z l -> l <> 0 -> pixel_is vals x y z v ->
      (l <> l0 -> exists w, v = wrap t3 w /\ area_of se im markers x y z l w) /\ (l = l0 -> v = wrap t3 N).
Proof.
  destruct (minima_values ByArea) as (vals & res & l0 & M & ext & E & (V1 & V2 & V3) & HM & Hl0 & Hx & V & V0). destruct MC as ((F & T0 & Hlt & Hex) & Hy & Co & Lz). pose proof F as (Ht & Wi & Wm & Sm & Ti & Tm & Hs & _).
  exists vals, res, l0. split; [exact E|]. split; [exact Hl0|]. split; [exact Hx|]. intros x y z l v Pm Hl Pv.
  destruct (px_val (sz im) markers _ _ _ _ Sm Pm) as (I & Rg & Em). pose proof (V3 _ _ _ _ Pm) as Pv'. replace (l =? 0) with false in Pv' by lia. rewrite (LoopFacts.pixel_is_fun _ _ _ _ _ _ Pv Pv'). clear Pv Pv' v. split.
  - intros Hne. pose proof (V _ Rg ltac:(congruence) ltac:(congruence)) as Q. apply (zQ_at ByArea t t2 t3 se im markers F Hlt Hy Lz _ _ Rg ltac:(congruence)) in Q as (h & f & Hf0 & Nf & Nfl & Wk & _ & S & S' & ND & ZS & ZS' & Eq & Ls).
    rewrite Em in Eq. rewrite Eq, wrap_wrap. exists (size_of S). split; [reflexivity|]. destruct (at_off t t2 se im markers F f Hf0) as (x' & y' & z' & I' & Ef & P' & Pm').
    assert (RS : forall p, In p (S ++ S') -> 0 <= p < N) by (intros p Hp; apply in_app_iff in Hp as [Hp|Hp]; [exact (zone_range se im _ _ _ _ ZS Hp)|exact (zone_range se im _ _ _ _ ZS' Hp)]).
    exists h, x', y', z', ((pixs markers) # f), (map (spot (sz im)) S), (map (spot (sz im)) S'). split; [exact Pm'|]. split; [exact Nf|]. split; [congruence|]. split; [apply (walk_zone t t2 se im markers F h _ _ Wk); auto|].
    split; [rewrite <- map_app; apply (spots_nodup t t2 se im markers F); [exact RS|exact ND]|]. split; [apply (zone_lake t t2 se im markers F Hlt); assumption|]. split; [apply (zone_lake t t2 se im markers F Hlt); [exact I'|rewrite <- Ef; exact ZS']|].
    unfold size_of in *. rewrite !map_length. split; [reflexivity|lia].
  - intros ->. rewrite V0. apply wrap_wrap.
Qed.

Theorem ext_volumes : exists vals res l0 M, watershedExtinction sort fuel ByVolume t t2 t3 se false im markers out bas = Some (Some (-100, (vals, res))) /\
    greatest_value im M /\ l0 <> 0 /\ (exists x y z, pixel_is markers x y z l0) /\
    forall x y z l v, pixel_is markers x y z l -> l <> 0 -> pixel_is vals x y z v ->
      (l <> l0 -> exists w, v = wrap t3 w /\ volume_of se im markers x y z l w) /\ (l = l0 -> v = wrap t3 (Zsum (map (fun u => M - u + 1) (pixs im)) mod 2 ^ 32)).
Proof.
  destruct (minima_values ByVolume) as (vals & res & l0 & M & ext & E & (V1 & V2 & V3) & HM & Hl0 & Hx & V & V0). destruct MC as ((F & T0 & Hlt & Hex) & Hy & Co & Lz). pose proof F as (Ht & Wi & Wm & Sm & Ti & Tm & Hs & _).
  exists vals, res, l0, M. split; [exact E|]. split; [exact HM|]. split; [exact Hl0|]. split; [exact Hx|]. intros x y z l v Pm Hl Pv.
  destruct (px_val (sz im) markers _ _ _ _ Sm Pm) as (I & Rg & Em). pose proof (V3 _ _ _ _ Pm) as Pv'. replace (l =? 0) with false in Pv' by lia. rewrite (LoopFacts.pixel_is_fun _ _ _ _ _ _ Pv Pv'). clear Pv Pv' v. split.
  - intros Hne. pose proof (V _ Rg ltac:(congruence) ltac:(congruence)) as Q. apply (zQ_at ByVolume t t2 t3 se im markers F Hlt Hy Lz _ _ Rg ltac:(congruence)) in Q as (h & f & Hf0 & Nf & Nfl & Wk & _ & S & S' & ND & ZS & ZS' & Eq & Ls).
    rewrite Em in Eq. rewrite Eq, wrap_wrap. exists (vol_of im h S). split; [reflexivity|]. destruct (at_off t t2 se im markers F f Hf0) as (x' & y' & z' & I' & Ef & P' & Pm').
    assert (RS : forall p, In p S -> 0 <= p < N) by (intros p Hp; exact (zone_range se im _ _ _ _ ZS Hp)). assert (RS' : forall p, In p S' -> 0 <= p < N) by (intros p Hp; exact (zone_range se im _ _ _ _ ZS' Hp)).
    exists h, x', y', z', ((pixs markers) # f), (map (spot (sz im)) S), (map (spot (sz im)) S'), (vol_of im h S'). split; [exact Pm'|]. split; [exact Nf|]. split; [congruence|]. split; [apply (walk_zone t t2 se im markers F h _ _ Wk); auto|].
    split; [rewrite <- map_app; apply (spots_nodup t t2 se im markers F); [intros p Hp; apply in_app_iff in Hp as [Hp|Hp]; auto|exact ND]|]. split; [apply (zone_lake t t2 se im markers F Hlt); assumption|]. split; [apply (zone_lake t t2 se im markers F Hlt); [exact I'|rewrite <- Ef; exact ZS']|].
    split; [apply (spots_water t t2 se im markers F); exact RS|]. split; [apply (spots_water t t2 se im markers F); exact RS'|exact Ls].
  - intros ->. rewrite V0. apply wrap_wrap.
Qed.
End Values.

(** ** C101: ranks *)
Lemma write_ranks S n ext : 0 <= n -> Z.of_nat (length S) = n -> NoDup S -> (forall r, In r S -> 0 <= r < Z.of_nat (length ext)) ->
  exists e', fold_opt (fun e i => option_bind (rd S i) (fun r => wr e r (i + 1))) (zseq n) ext = Some e' /\ length e' = length ext /\ forall i, 0 <= i < n -> e' # (S # i) = i + 1.
Proof.
  intros Hn Ls ND Rg. assert (Inj : forall i j, 0 <= i < n -> 0 <= j < n -> S # i = S # j -> i = j).
  { intros i j Hi Hj E. pose proof (rd_znth 0 S i ltac:(lia)) as A. pose proof (rd_znth 0 S j ltac:(lia)) as B. rewrite <- E in B. rewrite <- B in A. unfold rd in A. replace (0 <=? i) with true in A by lia. replace (0 <=? j) with true in A by lia. assert (K : Z.to_nat i = Z.to_nat j); [|lia]. rewrite NoDup_nth_error in ND. apply ND; [lia|exact A]. }
  assert (K : forall j, (Z.of_nat j <= n) -> exists e', fold_opt (fun e i => option_bind (rd S i) (fun r => wr e r (i + 1))) (zseq (Z.of_nat j)) ext = Some e' /\ length e' = length ext /\ forall i, 0 <= i < Z.of_nat j -> e' # (S # i) = i + 1).
  { induction j as [|j IH]; intros Hj; [exists ext; split; [reflexivity|]; split; [reflexivity|intros; lia]|]. destruct (IH ltac:(lia)) as (e1 & E1 & L1 & V1).
    replace (Z.of_nat (Datatypes.S j)) with (Z.of_nat j + 1) by lia. rewrite zseq_succ by lia. rewrite fold_opt_app, E1. cbn [option_bind fold_opt]. rewrite (rd_znth 0 S) by lia. cbn [option_bind].
    pose proof (rd_znth 0 S (Z.of_nat j) ltac:(lia)) as R. apply rd_In in R. specialize (Rg _ R). rewrite wr_upd by lia. cbn [option_bind]. eexists. split; [reflexivity|]. split; [rewrite upd_length; exact L1|]. intros i Hi. rewrite znth_upd' by lia.
    destruct (Z.eqb_spec (S # i) (S # (Z.of_nat j))) as [E|E]; [rewrite (Inj i (Z.of_nat j)) by (auto; lia); reflexivity|]. apply V1. assert (i <> Z.of_nat j) by congruence. lia. }
  destruct (K (Z.to_nat n) ltac:(lia)) as (e' & E & L & V). rewrite Z2Nat.id in * by lia. eauto.
Qed.

Lemma znth_tail a S j : 0 < j <= Z.of_nat (length S) -> (a :: S) # j = S # (j - 1).
Proof. intros Hj. apply znth_rd. pose proof (rd_znth 0 S (j - 1) ltac:(lia)) as R. rewrite <- R. unfold rd. replace (0 <=? j) with true by lia. replace (0 <=? j - 1) with true by lia. replace (Z.to_nat j) with (Datatypes.S (Z.to_nat (j - 1))) by lia. reflexivity. Qed.

Lemma sorted_order (key : Z -> Z) S : StronglySorted (fun i j => key j <= key i) S -> forall i j, 0 <= i < j -> j < Z.of_nat (length S) -> key S # j <= key S # i.
Proof.
  intros Ss. induction Ss as [|a S Hs IH Ha]; intros i j Hij Hj; cbn [length] in Hj; [lia|]. rewrite (znth_tail a S j) by lia. destruct (Z.eq_dec i 0) as [->|Hi0].
  - change ((a :: S) # 0) with a. rewrite Forall_forall in Ha. apply Ha. pose proof (rd_znth 0 S (j - 1) ltac:(lia)) as R. apply rd_In in R. exact R.
  - rewrite (znth_tail a S i) by lia. apply IH; lia.
Qed.

Lemma ranks_ok sort t3 n ext : key_sorts sort -> 0 <= n -> n <= tmax t3 -> Z.of_nat (length ext) = n + 1 ->
  exists e', ranks sort t3 n ext = Some e' /\ length e' = length ext /\
    (forall l, 1 <= l <= n -> 1 <= e' # l <= n) /\ (forall l l', 1 <= l <= n -> 1 <= l' <= n -> e' # l = e' # l' -> l = l') /\
    (forall l l', 1 <= l <= n -> 1 <= l' <= n -> ext # l' < ext # l -> e' # l < e' # l').
Proof.
  intros Hso Hn Hn3 Le. unfold ranks.
  assert (Er : map (fun i => wrap t3 (i + 1)) (zseq n) = map (fun i => i + 1) (zseq n)).
  { apply map_ext_in. intros i Hi. apply zseq_In in Hi. apply wrap_id. unfold inty. assert (tmin t3 <= 0) by (destruct t3; cbn; lia). lia. }
  rewrite Er. clear Er. set (l0 := map (fun i => i + 1) (zseq n)).
  assert (In0 : forall r, In r l0 <-> 1 <= r <= n). { intros r. unfold l0. rewrite in_map_iff. split; [intros (i & <- & Hi); apply zseq_In in Hi; lia|intros Hr; exists (r - 1); split; [lia|apply zseq_In; lia]]. }
  assert (ND0 : NoDup l0) by (apply FinFun.Injective_map_NoDup; [intros a b; lia|apply zseq_NoDup]).
  replace (existsb _ l0) with false; [|symmetry; apply not_true_is_false; intros H; apply existsb_exists in H as (r & Hr & H); apply In0 in Hr; lia].
  destruct (Hso (fun i => ext # i) l0) as (Pm & Ss). set (S := sort (fun i j => ext # i >? ext # j) l0) in *.
  assert (InS : forall r, In r S <-> 1 <= r <= n) by (intros r; rewrite <- In0; split; intros H; [exact (Permutation_in _ Pm H)|exact (Permutation_in _ (Permutation_sym Pm) H)]).
  assert (Ls : Z.of_nat (length S) = n) by (rewrite (Permutation_length Pm); unfold l0; rewrite map_length, zseq_length; lia).
  assert (NDS : NoDup S) by (apply (Permutation_NoDup (Permutation_sym Pm)); exact ND0).
  destruct (write_ranks S n ext Hn Ls NDS ltac:(intros r Hr; apply InS in Hr; lia)) as (e' & E & L & V). exists e'. split; [exact E|]. split; [exact L|].
  assert (Pos : forall l, 1 <= l <= n -> exists i, 0 <= i < n /\ S # i = l /\ e' # l = i + 1).
  { intros l Hl. apply InS in Hl. apply In_rd in Hl as (i & Hi & R). apply znth_rd with (d := 0) in R. exists i. split; [lia|]. split; [exact R|]. rewrite <- R. apply V. lia. }
  assert (Ord : forall i j, 0 <= i < j -> j < n -> ext # (S # j) <= ext # (S # i)) by (intros i j Hij Hj; apply (sorted_order (fun i => ext # i) S Ss i j Hij); lia).
  split; [|split].
  - intros l Hl. destruct (Pos l Hl) as (i & Hi & _ & ->). lia.
  - intros l l' Hl Hl' Ee. destruct (Pos l Hl) as (i & Hi & Ei & Vi). destruct (Pos l' Hl') as (j & Hj & Ej & Vj). replace j with i in Ej by lia. congruence.
  - intros l l' Hl Hl' Hv. destruct (Pos l Hl) as (i & Hi & Ei & ->). destruct (Pos l' Hl') as (j & Hj & Ej & ->). destruct (Z.lt_trichotomy i j) as [H|[H|H]]; [lia|rewrite H in Ei; replace l' with l in Hv by congruence; lia|].
    exfalso. pose proof (Ord j i ltac:(lia) ltac:(lia)) as K. rewrite Ei, Ej in K. lia.
Qed.

Theorem ext_ranks sort fuel k t t2 t3 se im markers out out' bas : ext_call t t2 se im markers -> turns fuel im markers -> sz out = sz im -> sz out' = sz im -> sz bas = sz im -> key_sorts sort ->
  (forall x y z l, pixel_is markers x y z l -> l <= tmax t3) ->
  exists rks vals res n, watershedExtinction sort fuel k t t2 t3 se true im markers out bas = Some (Some (-100, (rks, res))) /\
    watershedExtinction sort fuel k t t2 UINT32 se false im markers out' bas = Some (Some (-100, (vals, res))) /\ greatest_value markers n /\
    (forall x y z, pixel_is markers x y z 0 -> pixel_is rks x y z 0) /\
    (forall x y z l, pixel_is markers x y z l -> l <> 0 -> exists r, pixel_is rks x y z r /\ 1 <= r <= n) /\
    (forall x y z l r x' y' z' l' r', pixel_is markers x y z l -> l <> 0 -> pixel_is rks x y z r -> pixel_is markers x' y' z' l' -> l' <> 0 -> pixel_is rks x' y' z' r' -> (r = r' <-> l = l')) /\
    (forall x y z l v r x' y' z' l' v' r', pixel_is markers x y z l -> l <> 0 -> pixel_is vals x y z v -> pixel_is rks x y z r ->
       pixel_is markers x' y' z' l' -> l' <> 0 -> pixel_is vals x' y' z' v' -> pixel_is rks x' y' z' r' -> v' < v -> r < r').
Proof.
  intros (F & T0 & Hlt & Hex) Hf So So' Sb Hso H3. pose proof F as (Ht & Wi & Wm & Sm & Ti & Tm & Hs & Hw & Hp & HP). assert (Hsm : int_sized (sz markers)) by (rewrite Sm; exact Hs).
  destruct (any_run k t t2 UINT32 se im markers F T0 Hlt fuel None (proj1 Hf) (turns_top _ _ _ _ Wm Hsm Tm T0 Hlt Hf) (top_nonzero _ _ Wm Hsm Tm T0 Hlt Hex)) as (lbl & q & D & L & b & g' & stat & last & b' & E & E2 & IV & Hla & Le & Vb).
  destruct (values_run k t t2 UINT32 se im markers out' bas fuel lbl b' g' F T0 Hlt So' Sb sort E Le) as (vals & E3 & (V1 & V2 & V3)).
  destruct (top_spec t2 markers Wm Hsm Tm T0 Hlt) as (Hn & Hn32 & Hm & Hx). pose proof (top_nonzero _ _ Wm Hsm Tm T0 Hlt Hex) as Hn0. destruct Hx as [Hx|Hx]; [contradiction|]. set (n := top_label t2 markers) in *.
  assert (Hn3 : n <= tmax t3) by (destruct Hx as (x & y & z & P); exact (H3 _ _ _ _ P)).
  destruct (ranks_ok sort t3 n (bd_ext b') Hso ltac:(lia) Hn3 ltac:(lia)) as (e' & Er & Lr & R1 & R2 & R3).
  destruct (values_image t t2 t3 se im markers F T0 Hlt e' ltac:(rewrite Lr; exact Le)) as (pxr & Ew & (W1 & W2 & W3)).
  assert (Bn : forall x y z l, pixel_is markers x y z l -> 0 <= l <= n). { intros x y z l P. destruct (px_val (sz im) markers _ _ _ _ Sm P) as (_ & Rg & <-). apply Hm. pose proof Wm as (_ & Lm). unfold pixelCount in Lm. rewrite Sm in Lm. lia. }
  pose proof (l_x _ _ _ _ _ _ _ _ _ _ _ _ _ _ _ _ _ _ _ IV) as X.
  assert (Ity : forall l, 1 <= l <= n -> inty UINT32 (bd_ext b') # l).
  { intros l Hl. rewrite Vb. unfold put. destruct (_ =? _).
    - unfold last_value. destruct k; apply IntsFacts.wrap_range.
    - destruct (Z.eq_dec (bd_equ b) # l l) as [Er'|Er']; [rewrite (x_root _ _ _ _ _ _ _ _ _ _ _ _ _ X l) by (split; assumption); unfold inty; cbn; lia|]. apply (x_eaten _ _ _ _ _ _ _ _ _ _ _ _ _ X l Hl Er'). }
  assert (Rk : forall x y z l, pixel_is markers x y z l -> l <> 0 -> 1 <= l <= n /\ pixel_is (Img (sz im) pxr) x y z e' # l /\ pixel_is vals x y z (bd_ext b') # l).
  { intros x y z l P Hl. pose proof (Bn _ _ _ _ P) as B. split; [lia|]. pose proof (W3 _ _ _ _ P) as A. pose proof (V3 _ _ _ _ P) as C. replace (l =? 0) with false in * by lia. rewrite wrap_id in C by (apply Ity; lia).
    rewrite wrap_id in A by (unfold inty; specialize (R1 l ltac:(lia)); assert (tmin t3 <= 0) by (destruct t3; cbn; lia); lia). auto. }
  exists (Img (sz im) pxr), vals, (Img (sz im) lbl), n. split; [|split; [exact E3|split; [|split; [|split; [|split]]]]].
  - unfold watershedExtinction, floodWithExtRank. rewrite same_size_true by congruence. cbn [negb]. rewrite (flood_run k t t2 se im markers bas fuel lbl b' g' F T0 Hlt Sb UINT32 E). cbn [fuel_bind Z.eqb Pos.eqb negb].
    rewrite maxVal_eq by exact Wm. cbn [option_bind considered]. fold (top_label t2 markers). fold n. rewrite (wrap32_small n) by lia. rewrite Er. cbn [option_bind]. rewrite Ew. reflexivity.
  - split; [exact Hx|]. intros x y z v P. apply (Bn _ _ _ _ P).
  - intros x y z P. exact (W3 _ _ _ 0 P).
  - intros x y z l P Hl. destruct (Rk _ _ _ _ P Hl) as (Hr & A & _). eauto.
  - intros x y z l r x' y' z' l' r' P Hl Pr P' Hl' Pr'. destruct (Rk _ _ _ _ P Hl) as (Hr & A & _). destruct (Rk _ _ _ _ P' Hl') as (Hr' & A' & _).
    rewrite (LoopFacts.pixel_is_fun _ _ _ _ _ _ Pr A), (LoopFacts.pixel_is_fun _ _ _ _ _ _ Pr' A'). split; [apply R2; assumption|congruence].
  - intros x y z l v r x' y' z' l' v' r' P Hl Pv Pr P' Hl' Pv' Pr' Hv. destruct (Rk _ _ _ _ P Hl) as (Hr & A & B). destruct (Rk _ _ _ _ P' Hl') as (Hr' & A' & B').
    rewrite (LoopFacts.pixel_is_fun _ _ _ _ _ _ Pr A), (LoopFacts.pixel_is_fun _ _ _ _ _ _ Pr' A'). apply R3; try assumption. rewrite (LoopFacts.pixel_is_fun _ _ _ _ _ _ B Pv), (LoopFacts.pixel_is_fun _ _ _ _ _ _ B' Pv'). exact Hv.
Qed.
