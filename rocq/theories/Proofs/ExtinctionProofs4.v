(** Extinction values in terms of pixels. *)
From Verif Require Export Proofs.LabelExtrema Proofs.ExtinctionProofs3 Spec.ExtinctionSpec.
From Verif Require Spec.GraphSpec.

Local Notation "l # i" := (znth 0 l i) (at level 9).

Lemma turns_top fuel t2 im markers : wf_img markers -> int_sized (sz markers) -> typed_img t2 markers -> tmin t2 = 0 -> (forall x y z l, pixel_is markers x y z l -> l < tmax t2) ->
  turns fuel im markers -> (Z.to_nat (top_label t2 markers) <= fuel)%nat.
Proof.
  intros Wm Hs Tm T0 Hlt (_ & Hf). destruct (top_spec t2 markers Wm Hs Tm T0 Hlt) as (_ & _ & _ & [->|(x & y & z & P)]); [cbn; lia|exact (Hf _ _ _ _ P)].
Qed.

Lemma top_nonzero t2 markers : wf_img markers -> int_sized (sz markers) -> typed_img t2 markers -> tmin t2 = 0 -> (forall x y z l, pixel_is markers x y z l -> l < tmax t2) ->
  (exists x y z, in_marker markers x y z) -> top_label t2 markers <> 0.
Proof.
  intros Wm Hs Tm T0 Hlt (x & y & z & l & P & Hl). destruct (top_spec t2 markers Wm Hs Tm T0 Hlt) as (_ & _ & H & _). pose proof Wm as (_ & Lm). unfold pixelCount in Lm.
  destruct (px_val (sz markers) markers _ _ _ _ eq_refl P) as (_ & Rg & E). specialize (H _ ltac:(rewrite Lm; exact Rg)). lia.
Qed.

(** ** Writing the values *)
Lemma write_values_ok t3 ext markers n : (forall p, 0 <= p < Z.of_nat (length (pixs markers)) -> 0 <= (pixs markers) # p <= n) -> Z.of_nat (length ext) = n + 1 ->
  exists out, write_values t3 ext markers = Some out /\ length out = length (pixs markers) /\
    forall p, 0 <= p < Z.of_nat (length (pixs markers)) -> out # p = if (pixs markers) # p =? 0 then 0 else wrap t3 ext # ((pixs markers) # p).
Proof.
  intros Hm Le. unfold write_values. exists (map (fun l => if l =? 0 then 0 else wrap t3 ext # l) (pixs markers)). split; [|split].
  - apply all_some_map. intros l Hl. apply In_rd in Hl as (p & Hp & Rp). apply znth_rd with (d := 0) in Rp. specialize (Hm p Hp). rewrite Rp in Hm. destruct (Z.eqb_spec l 0) as [->|Hne]; cbn [negb]; [reflexivity|]. rewrite (rd_znth 0 ext) by lia. reflexivity.
  - apply map_length.
  - intros p Hp. apply znth_rd. rewrite rd_map, (rd_znth 0 (pixs markers)) by exact Hp. reflexivity.
Qed.

(** ** From the flooding to the functions *)
Section Functions.
Context (k : criterion) (t t2 t3 : ity) (se : strelt) (im markers out bas : img) (fuel : nat) (lbl : list Z) (q : hqueue) (b' : basin_data) (g' : option graph).
Context (F : flood_ok t t2 se im markers) (T0 : tmin t2 = 0) (Hlt : forall x y z l, pixel_is markers x y z l -> l < tmax t2).
Context (So : sz out = sz im) (Sb : sz bas = sz im).
Context (E2 : exists q0, flood_init t (pixs im) (pixs markers) = Some q0 /\ flood_loop fuel t se (sz im) (pixs im) (FL (pixs markers) q0) = Some (Some (FL lbl q))).

Lemma top_below : top_label t2 markers <? tmax t2 = true.
Proof. destruct F as (Ht & Wi & Wm & Sm & Ti & Tm & Hs & _). apply Z.ltb_lt. apply (top_spec t2 markers Wm ltac:(rewrite Sm; exact Hs) Tm T0 Hlt). Qed.

Lemma basins_run : basins fuel t t2 se im markers bas = Some (Some (1, Img (sz im) lbl)).
Proof.
  pose proof F as (Ht & Wi & Wm & Sm & Ti & Tm & Hs & Hw & Hp & HP). unfold basins. rewrite !same_size_true by congruence. cbn [andb negb]. rewrite maxVal_eq by exact Wm. cbn [option_bind considered]. fold (top_label t2 markers). rewrite top_below. cbn [negb].
  destruct E2 as (q0 & Eq & El). rewrite Eq. cbn [option_bind]. rewrite El. reflexivity.
Qed.

Lemma flood_run te : ext_process fuel k t t2 te se im markers None = Some (Some (lbl, b', g')) -> ext_flood fuel k t t2 te se im markers bas = Some (Some (1, Img (sz im) lbl, b')).
Proof.
  intros E. pose proof F as (Ht & Wi & Wm & Sm & Ti & Tm & Hs & Hw & Hp & HP). unfold ext_flood. rewrite !same_size_true by congruence. cbn [andb negb]. rewrite maxVal_eq by exact Wm. cbn [option_bind considered]. fold (top_label t2 markers). rewrite top_below. cbn [negb].
  rewrite E. reflexivity.
Qed.

(** The image of the values. *)
Definition values_are (t3 : ity) (ext : list Z) (markers vals : img) : Prop :=
  sz vals = sz markers /\ wf_img vals /\ forall x y z l, pixel_is markers x y z l -> pixel_is vals x y z (if l =? 0 then 0 else wrap t3 ext # l).

Lemma values_image ext : length ext = Z.to_nat (top_label t2 markers + 1) -> exists px, write_values t3 ext markers = Some px /\ values_are t3 ext markers (Img (sz im) px).
Proof.
  intros Le. pose proof F as (Ht & Wi & Wm & Sm & Ti & Tm & Hs & Hw & Hp & HP). destruct (top_spec t2 markers Wm ltac:(rewrite Sm; exact Hs) Tm T0 Hlt) as (Hn & _ & Hm & _).
  destruct (write_values_ok t3 ext markers (top_label t2 markers) Hm ltac:(lia)) as (px & E & Lx & V). exists px. split; [exact E|]. pose proof Wm as (Wd & Lm).
  assert (Wo : wf_img (Img (sz im) px)) by (split; [apply Wi|cbn [pixs sz]; rewrite Lx, Lm, Sm; reflexivity]).
  split; [cbn; congruence|]. split; [exact Wo|]. intros x y z l P. destruct (px_val (sz im) markers _ _ _ _ Sm P) as (I & Rg & El).
  pose proof (px_at (sz im) (Img (sz im) px) x y z eq_refl Wo I) as Po. cbn [pixs] in Po. rewrite V in Po by (rewrite Lm, Sm; exact Rg). rewrite El in Po. exact Po.
Qed.

Lemma values_run sort : ext_process fuel k t t2 t3 se im markers None = Some (Some (lbl, b', g')) -> length (bd_ext b') = Z.to_nat (top_label t2 markers + 1) ->
  exists vals, watershedExtinction sort fuel k t t2 t3 se false im markers out bas = Some (Some (-100, (vals, Img (sz im) lbl))) /\ values_are t3 (bd_ext b') markers vals.
Proof.
  intros E Le. destruct (values_image (bd_ext b') Le) as (px & Ew & V). exists (Img (sz im) px). split; [|exact V].
  unfold watershedExtinction, floodWithExtValues. rewrite same_size_true by congruence. cbn [negb]. rewrite (flood_run t3 E). cbn [fuel_bind Z.eqb Pos.eqb negb]. rewrite Ew. reflexivity.
Qed.
End Functions.

(** ** C97: the basins *)
Theorem ext_basins sort fuel k t t2 t3 se im markers out bas : ext_call t t2 se im markers -> turns fuel im markers -> sz out = sz im -> sz bas = sz im ->
  exists vals res, watershedExtinction sort fuel k t t2 t3 se false im markers out bas = Some (Some (-100, (vals, res))) /\ basins fuel t t2 se im markers bas = Some (Some (1, res)) /\
    sz vals = sz im /\ wf_img vals /\
    (forall x y z, pixel_is markers x y z 0 -> pixel_is vals x y z 0) /\
    (forall x y z l x' y' z' v, pixel_is markers x y z l -> pixel_is markers x' y' z' l -> pixel_is vals x y z v -> pixel_is vals x' y' z' v).
Proof.
  intros (F & T0 & Hlt & Hex) Hf So Sb. pose proof F as (Ht & Wi & Wm & Sm & Ti & Tm & Hs & Hw & Hp & HP). assert (Hsm : int_sized (sz markers)) by (rewrite Sm; exact Hs).
  destruct (any_run k t t2 t3 se im markers F T0 Hlt fuel None (proj1 Hf) (turns_top _ _ _ _ Wm Hsm Tm T0 Hlt Hf) (top_nonzero _ _ Wm Hsm Tm T0 Hlt Hex)) as (lbl & q & D & L & b & g' & stat & last & b' & E & E2 & IV & _ & Le & _).
  destruct (values_run k t t2 t3 se im markers out bas fuel lbl b' g' F T0 Hlt So Sb sort E Le) as (vals & E3 & (V1 & V2 & V3)).
  exists vals, (Img (sz im) lbl). split; [exact E3|]. split; [exact (basins_run t t2 se im markers bas fuel lbl q F T0 Hlt Sb E2)|]. split; [congruence|]. split; [exact V2|]. split.
  - intros x y z P. exact (V3 x y z 0 P).
  - intros x y z l x' y' z' v P P' Pv. pose proof (V3 _ _ _ _ P) as A. pose proof (V3 _ _ _ _ P') as B. destruct Pv as (_ & R1). destruct A as (_ & R2). rewrite R1 in R2. injection R2 as ->. exact B.
Qed.

(** ** The graph does not change the rest *)
Definition forget (st : exstate) : exstate := EX (ex_fl st) (ex_b st) None (ex_stat st) (ex_level st) (ex_last st).
Definition carries (st st' : exstate) : Prop := ex_g st <> None -> ex_g st' <> None.

Lemma process_forget k te n L o1 o2 b g b' g' : processMerge k te n L o1 o2 b g = Some (b', g') -> processMerge k te n L o1 o2 b None = Some (b', None) /\ (g <> None -> g' <> None).
Proof.
  unfold processMerge. destruct (rd (bd_equ b) o1) as [l1|]; [|discriminate]. destruct (rd (bd_equ b) o2) as [l2|]; [|discriminate]. cbn [option_bind].
  repeat match goal with |- context[match ?x with _ => _ end] => lazymatch x with g => fail | _ => destruct x; cbn [option_bind] end | |- context[option_bind ?x _] => destruct x; cbn [option_bind] end; try discriminate; intros H; injection H as <- <-; (split; [reflexivity|destruct g; congruence]).
Qed.

Lemma neighbor_forget k t te n px cur st nb st' : ext_neighbor k t te n px cur st nb = Some st' -> ext_neighbor k t te n px cur (forget st) nb = Some (forget st') /\ carries st st'.
Proof.
  unfold ext_neighbor, carries. cbn [forget ex_fl ex_b ex_g ex_stat ex_level ex_last]. destruct (rd (fl_lbl (ex_fl st)) nb) as [a|]; [|discriminate]. destruct (rd (fl_lbl (ex_fl st)) cur) as [c|]; [|discriminate]. cbn [option_bind]. destruct (a =? 0).
  - destruct (rd px nb) as [v|]; [|discriminate]. cbn [option_bind]. destruct (hq_push _ _ _ _ _) as [q|]; [|discriminate]. cbn [option_bind]. destruct (wr _ nb c) as [l|]; [|discriminate]. cbn [option_bind]. destruct (wr _ nb XQ_QUEUED) as [l'|]; [|discriminate]. cbn [option_bind]. intros H. injection H as <-. split; [reflexivity|auto].
  - destruct (rd (ex_stat st) nb) as [x|]; [|discriminate]. cbn [option_bind]. destruct (x =? XQ_DONE); [|intros H; injection H as <-; split; [reflexivity|auto]].
    destruct (rd (bd_equ (ex_b st)) a) as [ea|]; [|discriminate]. cbn [option_bind]. destruct (rd (bd_equ (ex_b st)) c) as [ec|]; [|discriminate]. cbn [option_bind]. destruct (negb (ea =? ec)); [|intros H; injection H as <-; split; [reflexivity|auto]].
    destruct (processMerge _ _ _ _ _ _ _ _) as [(b', g')|] eqn:E; [|discriminate]. cbn [option_bind]. intros H. injection H as <-. destruct (process_forget _ _ _ _ _ _ _ _ _ _ E) as [E' K]. rewrite E'. split; [reflexivity|exact K].
Qed.

Lemma fold_forget {A} (f : exstate -> A -> option exstate) : (forall st x st', f st x = Some st' -> f (forget st) x = Some (forget st') /\ carries st st') -> forall l st st', fold_opt f l st = Some st' -> fold_opt f l (forget st) = Some (forget st') /\ carries st st'.
Proof.
  intros Hf. induction l as [|x l IH]; intros st st' H; cbn [fold_opt] in *; [injection H as <-; split; [reflexivity|red; auto]|]. destruct (f st x) as [st1|] eqn:E; [|discriminate]. cbn [option_bind] in *. destruct (Hf _ _ _ E) as [-> K]. cbn [option_bind]. destruct (IH _ _ H) as [-> K']. split; [reflexivity|red; auto].
Qed.

Lemma pixel_forget fuel k t t2 te n se s px cur st st' : ext_pixel fuel k t t2 te n se s px cur st = Some (Some st') -> ext_pixel fuel k t t2 te n se s px cur (forget st) = Some (Some (forget st')) /\ carries st st'.
Proof.
  unfold ext_pixel. destruct (rd px cur) as [v|]; [|discriminate]. cbn [option_bind].
  assert (K : forall st1, (if v >? ex_level st then fuel_bind (raise_loop fuel k t2 n v 1 (ex_b st)) (fun b => Some (Some (EX (ex_fl st) b (ex_g st) (ex_stat st) v (ex_last st)))) else Some (Some st)) = Some (Some st1) ->
    (if v >? ex_level (forget st) then fuel_bind (raise_loop fuel k t2 n v 1 (ex_b (forget st))) (fun b => Some (Some (EX (ex_fl (forget st)) b (ex_g (forget st)) (ex_stat (forget st)) v (ex_last (forget st))))) else Some (Some (forget st))) = Some (Some (forget st1)) /\ carries st st1).
  { intros st1. cbn [forget ex_fl ex_b ex_g ex_stat ex_level ex_last]. destruct (v >? ex_level st); [|intros H; injection H as <-; split; [reflexivity|red; auto]]. destruct (raise_loop _ _ _ _ _ _ _) as [[b1|]|]; cbn [fuel_bind]; intros H; try discriminate. injection H as <-. split; [reflexivity|red; auto]. }
  destruct (if v >? ex_level st then _ else Some (Some st)) as [[st1|]|]; cbn [fuel_bind]; try discriminate. destruct (K st1 eq_refl) as [-> K1]. clear K. cbn [fuel_bind].
  destruct (flood_pixel (ext_neighbor k t te n px) se s cur st1) as [st2|] eqn:E; [|discriminate]. cbn [option_bind].
  assert (E' : flood_pixel (ext_neighbor k t te n px) se s cur (forget st1) = Some (forget st2) /\ carries st1 st2).
  { unfold flood_pixel in *. destruct (flood_coords s cur) as [xyz|]; [|discriminate]. cbn [option_bind] in *. revert E. apply fold_forget. intros sx p sx'. destruct (not_origin p); [|intros H; injection H as <-; split; [reflexivity|red; auto]]. destruct (nb_offset se s cur xyz p); [apply neighbor_forget|intros H; injection H as <-; split; [reflexivity|red; auto]]. }
  destruct E' as [-> K2]. cbn [option_bind forget ex_fl ex_b ex_g ex_stat ex_level ex_last].
  destruct (rd (fl_lbl (ex_fl st2)) cur) as [l1|]; [|discriminate]. cbn [option_bind]. destruct (rd (bd_equ (ex_b st2)) l1) as [e1|]; [|discriminate]. cbn [option_bind]. destruct (insertPixel _ _ _ _ _) as [b3|]; [|discriminate]. cbn [option_bind]. destruct (wr _ cur XQ_DONE) as [s3|]; [|discriminate]. cbn [option_bind]. intros H. injection H as <-. split; [reflexivity|]. unfold carries in *. cbn [ex_g]. auto.
Qed.

Lemma loop_forget fuel k t t2 te n se s px : forall j st st', ext_loop fuel k t t2 te j n se s px st = Some (Some st') -> ext_loop fuel k t t2 te j n se s px (forget st) = Some (Some (forget st')) /\ carries st st'.
Proof.
  induction j as [|j IH]; intros st st'; cbn [ext_loop]; cbn [forget ex_fl ex_b ex_g ex_stat ex_level ex_last]; destruct (hq_isEmpty (fl_q (ex_fl st))); try discriminate; try (intros H; injection H as <-; split; [reflexivity|red; auto]).
  destruct (hq_pop _ _ _) as [(cur, q)|]; [|discriminate]. cbn [option_bind]. destruct (ext_pixel _ _ _ _ _ _ _ _ _ _ (EX _ _ (ex_g st) _ _ _)) as [[st1|]|] eqn:E; cbn [fuel_bind]; try discriminate.
  intros H. apply pixel_forget in E. unfold forget in E at 1. cbn [ex_fl ex_b ex_g ex_stat ex_level ex_last] in E. destruct E as [-> K]. cbn [fuel_bind]. destruct (IH _ _ H) as [-> K']. split; [reflexivity|]. unfold carries in *. auto.
Qed.

Lemma forget_graph fuel k t t2 te se im lb g lbl b' g' : ext_process fuel k t t2 te se im lb g = Some (Some (lbl, b', g')) -> ext_process fuel k t t2 te se im lb None = Some (Some (lbl, b', None)) /\ (g <> None -> g' <> None).
Proof.
  unfold ext_process. destruct (maxVal t2 false lb) as [m0|]; [|discriminate]. cbn [option_bind]. destruct (flood_init _ _ _) as [q|]; [|discriminate]. cbn [option_bind].
  destruct (ext_loop _ _ _ _ _ _ _ _ _ _ (EX _ _ g _ _ _)) as [[st|]|] eqn:E; cbn [fuel_bind]; try discriminate. apply loop_forget in E. unfold forget in E at 1. cbn [ex_fl ex_b ex_g ex_stat ex_level ex_last] in E. destruct E as [-> K]. cbn [fuel_bind forget ex_fl ex_b ex_g ex_stat ex_level ex_last].
  destruct (ex_last st) as [p|]; [|discriminate]. cbn [option_bind]. destruct (rd (fl_lbl (ex_fl st)) p) as [l2|]; [|discriminate]. cbn [option_bind]. destruct (rd (bd_equ (ex_b st)) l2) as [e2|]; [|discriminate]. cbn [option_bind]. destruct (finalize _ _ _ _ _) as [b3|]; [|discriminate]. cbn [option_bind]. intros H. injection H as <- <- <-. split; [reflexivity|exact K].
Qed.

Lemma two_way_sym se s : symmetric_se se -> planar se s -> two_way se s.
Proof. intros Hy HP a b (x & y & z & x' & y' & z' & I & I' & Ea & Eb & S). exists x', y', z', x, y, z. repeat (split; [assumption|]). apply (sees_sym se s); assumption. Qed.

Lemma rd_map_inv {A B} (f : A -> B) l i y : rd (map f l) i = Some y -> exists x, rd l i = Some x /\ y = f x.
Proof. rewrite rd_map. destruct (rd l i) as [x|]; cbn; intros H; [injection H as <-; eauto|discriminate]. Qed.
