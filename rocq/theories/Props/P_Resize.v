(** C118 to C120: resizing by the closest pixel, linear interpolation, binary images. *)
From Coq Require Import String.
From Verif Require Import Proofs.ResizeProofs.
Local Open Scope Z_scope.

(** C118: with the closest method, each pixel of the output takes the value of a nearest pixel of the image. *)
Theorem C118_closest_partial : forall t fuel junk sched im sx sy sz' imOut, legal_sched sched -> wf_img im -> solid_dims (sz im) -> dd (sz im) = 1 -> wf_img imOut -> 2 <= sx -> 2 <= sy ->
  exists out, resize t (S fuel) junk sched im sx sy sz' imOut "closest" = Some (1, out) /\ wf_img out /\ sz out = Dims sx sy 1 /\
    forall i j v, pixel_is out i j 0 v -> exists x y, nearest_to (dw (sz im)) sx i x /\ nearest_to (dh (sz im)) sy j y /\ pixel_is im x y 0 v.
Proof.
  intros t fuel junk sched im sx sy sz' imOut Hs W S D Wo Hx Hy. destruct (closest_loop_ok junk sched im sx sy imOut Hs W S D Wo Hx Hy) as (out & E & A & B & C).
  exists out. split; [|split; [exact A|split; [exact B|]]].
  - unfold resize. cbn [String.eqb Ascii.eqb Bool.eqb]. unfold depth. replace (dd (sz im) >? 1) with false by lia. cbn [negb closest_call]. unfold depth. replace (dd (sz im) >? 1) with false by lia. exact E.
  - intros i j v Hv. destruct (C i j v Hv) as (x & y & H1 & H2 & H3 & _). eauto.
Qed.
Print Assumptions C118_closest_partial.

(** No new value appears; the image is unchanged when it is resized to its own size. *)
Theorem C118_values_partial : forall t fuel junk sched im sx sy sz' imOut out, legal_sched sched -> wf_img im -> solid_dims (sz im) -> dd (sz im) = 1 -> wf_img imOut -> 2 <= sx -> 2 <= sy ->
  resize t (S fuel) junk sched im sx sy sz' imOut "closest" = Some (1, out) -> forall v, In v (pixs out) -> In v (pixs im).
Proof.
  intros t fuel junk sched im sx sy sz' imOut out Hs W S D Wo Hx Hy E v Hv.
  destruct (C118_closest_partial t fuel junk sched im sx sy sz' imOut Hs W S D Wo Hx Hy) as (o & E' & (Wd & L) & Es & H). rewrite E in E'. injection E' as <-.
  apply In_rd in Hv as (a & Ha & Hv). rewrite L in Ha. destruct (voxel_surj _ _ Wd Ha) as (x & y & z & Hin & ->).
  assert (z = 0) as -> by (destruct Hin as (_ & _ & Hz); rewrite Es in Hz; cbn in Hz; lia).
  destruct (H x y v (conj Hin Hv)) as (x' & y' & _ & _ & _ & R). apply (rd_In _ _ _ R).
Qed.
Print Assumptions C118_values_partial.
Theorem C118_same_size_partial : forall t fuel junk sched im sz' imOut, legal_sched sched -> wf_img im -> dd (sz im) = 1 -> wf_img imOut -> 2 <= dw (sz im) -> 2 <= dh (sz im) ->
  resize t (S fuel) junk sched im (dw (sz im)) (dh (sz im)) sz' imOut "closest" = Some (1, im).
Proof.
  intros t fuel junk sched im sz' imOut Hs W D Wo Hx Hy.
  destruct (C118_closest_partial t fuel junk sched im (dw (sz im)) (dh (sz im)) sz' imOut Hs W ltac:(repeat split; lia) D Wo Hx Hy) as (o & E & Wo' & Es & H). rewrite E. do 2 f_equal.
  assert (Ed : sz o = sz im) by (rewrite Es; rewrite <- D; destruct (sz im); reflexivity).
  apply img_ext; [exact Wo'|exact W|exact Ed|]. intros x y z v Hv. pose proof (proj1 Hv) as (_ & _ & Hz). rewrite Ed in Hz. replace z with 0 in * by lia.
  destruct (H x y v Hv) as (x' & y' & (_ & Nx) & (_ & Ny) & Hp). assert (x' = x) as -> by nia. assert (y' = y) as -> by nia. exact Hp.
Qed.
Print Assumptions C118_same_size_partial.
(** Resizing commutes with any function of the values. *)
Theorem C118_pointwise_partial : forall t fuel junk sched im sx sy sz' imOut imOut' f out, legal_sched sched -> wf_img im -> solid_dims (sz im) -> dd (sz im) = 1 -> wf_img imOut -> wf_img imOut' -> 2 <= sx -> 2 <= sy ->
  resize t (S fuel) junk sched im sx sy sz' imOut "closest" = Some (1, out) ->
  resize t (S fuel) junk sched (map_img f im) sx sy sz' imOut' "closest" = Some (1, map_img f out).
Proof.
  intros t fuel junk sched im sx sy sz' imOut imOut' f out Hs W S D Wo Wo' Hx Hy E.
  assert (R : forall im imOut, dd (sz im) = 1 -> resize t (Datatypes.S fuel) junk sched im sx sy sz' imOut "closest" = closest_loop junk sched im sx sy imOut).
  { clear. intros im imOut D. unfold resize. cbn [String.eqb Ascii.eqb Bool.eqb]. unfold depth. replace (dd (sz im) >? 1) with false by lia. cbn [negb closest_call]. unfold depth. replace (dd (sz im) >? 1) with false by lia. reflexivity. }
  rewrite R in * by exact D.
  assert (Wf : wf_img (map_img f im)) by (destruct W as (Wd & L); split; [exact Wd|]; cbn; rewrite map_length; exact L).
  destruct (closest_loop_ok junk sched im sx sy imOut Hs W S D Wo Hx Hy) as (o & E1 & W1 & Es1 & H1). rewrite E in E1. injection E1 as <-.
  destruct (closest_loop_ok junk sched (map_img f im) sx sy imOut' Hs Wf S D Wo' Hx Hy) as (o' & E2 & W2 & Es2 & H2). rewrite E2. do 2 f_equal.
  assert (Wm : wf_img (map_img f out)) by (destruct W1 as (Wd & L); split; [exact Wd|]; cbn; rewrite map_length; exact L).
  apply img_ext; [exact W2|exact Wm|cbn; congruence|]. intros i j k v Hv. pose proof (proj1 Hv) as Hin. assert (k = 0) as -> by (destruct Hin as (_ & _ & Hk); rewrite Es2 in Hk; cbn in Hk; lia).
  destruct (H2 i j v Hv) as (x & y & _ & _ & (_ & Hp) & Ex & Ey). cbn [map_img sz pixs] in *. rewrite rd_map in Hp. destruct (rd (pixs im) _) as [u|] eqn:Eu; [|discriminate]. injection Hp as <-.
  assert (In1 : inside (sz out) i j 0) by (rewrite Es1, <- Es2; exact Hin).
  destruct (pixel_exists out i j 0 W1 In1) as (u' & Hu'). destruct (H1 i j u' Hu') as (x1 & y1 & _ & _ & (_ & Hp1) & Ex1 & Ey1). rewrite Ex in Ex1. rewrite Ey in Ey1. injection Ex1 as <-. injection Ey1 as <-.
  rewrite Eu in Hp1. injection Hp1 as <-. split; [exact In1|]. cbn [map_img sz pixs]. rewrite rd_map, (proj2 Hu'). reflexivity.
Qed.
Print Assumptions C118_pointwise_partial.

(** On volumes the two functions of the closest method call each other for ever, whatever the number of calls. *)
Theorem C118_volume_never : forall t fuel junk sched im sx sy sz' imOut, 1 < dd (sz im) -> resize t fuel junk sched im sx sy sz' imOut "closest" = None.
Proof. intros t fuel junk sched im sx sy sz' imOut D. unfold resize. cbn [String.eqb Ascii.eqb Bool.eqb]. apply closest_forever. exact D. Qed.
Print Assumptions C118_volume_never.
Theorem C118_volume_refuted : ~ (forall t junk sched im sx sy sz' imOut, legal_sched sched -> wf_img im -> solid_dims (sz im) -> wf_img imOut -> 2 <= sx -> 2 <= sy -> 2 <= sz' ->
  exists fuel out, resize t fuel junk sched im sx sy sz' imOut "closest" = Some (1, out)).
Proof.
  intros H. assert (W : wf_img (Img (Dims 2 2 2) (repeat 0 8))) by (split; [repeat split; cbn; lia|reflexivity]).
  destruct (H UINT8 (fun _ => 0) (fun l => l) (Img (Dims 2 2 2) (repeat 0 8)) 2 2 2 (Img (Dims 2 2 2) (repeat 0 8))) as (fuel & out & E); try lia; auto.
  - intros l i. reflexivity.
  - repeat split; cbn; lia.
  - rewrite C118_volume_never in E by (cbn; lia). discriminate.
Qed.
Print Assumptions C118_volume_refuted.
(** One column: the position is not a number. *)
Theorem C118_column_refuted : ~ (forall t junk sched im sx sy sz' imOut, legal_sched sched -> wf_img im -> solid_dims (sz im) -> dd (sz im) = 1 -> wf_img imOut -> 1 <= sx -> 1 <= sy ->
  exists fuel out, resize t fuel junk sched im sx sy sz' imOut "closest" = Some (1, out)).
Proof.
  intros H. destruct (H UINT8 (fun _ => 0) (fun l => l) (Img (Dims 1 1 1) [7]) 1 1 1 (Img (Dims 1 1 1) [0])) as (fuel & out & E); try lia; try reflexivity.
  - intros l i. reflexivity.
  - split; [repeat split; cbn; lia|reflexivity].
  - repeat split; cbn; lia.
  - split; [repeat split; cbn; lia|reflexivity].
  - destruct fuel; discriminate.
Qed.
Print Assumptions C118_column_refuted.
(** In place, the method is forgotten and new values appear. *)
Theorem C118_inplace_refuted : ~ (forall t fuel junk sched im sx sy sz' out, legal_sched sched -> wf_img im -> typed_img t im -> solid_dims (sz im) -> dd (sz im) = 1 -> 2 <= sx -> 2 <= sy ->
  resize_inplace t fuel junk sched im sx sy sz' "closest" = Some (1, out) -> forall v, In v (pixs out) -> In v (pixs im)).
Proof.
  intros H. specialize (H UINT8 1%nat (fun _ => 0) (fun l => l) (Img (Dims 2 2 1) [0; 255; 0; 255]) 3 2 1 (Img (Dims 3 2 1) [0; 127; 255; 0; 127; 255])).
  destruct H with (v := 127) as [E|[E|[E|[E|[]]]]]; try discriminate; try lia; try reflexivity.
  - intros l i. reflexivity.
  - split; [repeat split; cbn; lia|reflexivity].
  - repeat constructor; cbn; lia.
  - repeat split; cbn; lia.
  - cbn. auto.
Qed.
Print Assumptions C118_inplace_refuted.

Definition chess : img := Img (Dims 2 2 1) [0; 9; 9; 0].
Lemma chess_ok : wf_img chess /\ solid_dims (sz chess) /\ typed_img UINT8 chess /\ dd (sz chess) = 1.
Proof. repeat split; try (cbn; lia). repeat constructor; cbn; lia. Qed.
Example C118_case : resize UINT8 1 (fun _ => 5) (fun l => l) chess 4 3 1 (Img (Dims 1 1 1) [0]) "closest" = Some (1, Img (Dims 4 3 1) [0; 0; 9; 9; 9; 9; 0; 0; 9; 9; 0; 0]) /\ nearest_to 2 4 1 0 /\ ~ nearest_to 2 4 1 1.
Proof. split; [reflexivity|]. unfold nearest_to. lia. Qed.

(** C119: linear interpolation, truncated. *)
Theorem C119_bilinear_partial : forall t fuel junk sched im sx sy sz' imOut method, method = "bilinear"%string \/ method = "trilinear"%string -> legal_sched sched -> wf_img im -> typed_img t im -> solid_dims (sz im) -> dd (sz im) = 1 -> wf_img imOut -> 2 <= sx -> 2 <= sy ->
  exists out, resize t fuel junk sched im sx sy sz' imOut method = Some (1, out) /\ wf_img out /\ sz out = Dims sx sy 1 /\
    forall i j v, pixel_is out i j 0 v -> v = Z.quot (lin2 (sz im) sx sy i j (fun x y => value im x y 0)) ((sx - 1) * (sy - 1)).
Proof.
  intros t fuel junk sched im sx sy sz' imOut method M Hs W T S D Wo Hx Hy. destruct (bilinear_ok t junk sched im sx sy imOut Hs W T S D Wo Hx Hy) as (out & E & A).
  exists out. split; [|exact A]. unfold resize, depth. replace (dd (sz im) >? 1) with false by lia. destruct M as [-> | ->]; exact E.
Qed.
Print Assumptions C119_bilinear_partial.
Theorem C119_trilinear_partial : forall t fuel junk sched im sx sy sz' imOut method, method = "bilinear"%string \/ method = "trilinear"%string -> legal_sched sched -> wf_img im -> typed_img t im -> solid_dims (sz im) -> 2 <= dd (sz im) -> wf_img imOut -> 2 <= sx -> 2 <= sy -> 2 <= sz' ->
  exists out, resize t fuel junk sched im sx sy sz' imOut method = Some (1, out) /\ wf_img out /\ sz out = Dims sx sy sz' /\
    forall i j k v, pixel_is out i j k v -> v = Z.quot (lin3 (sz im) sx sy sz' i j k (value im)) ((sx - 1) * (sy - 1) * (sz' - 1)).
Proof.
  intros t fuel junk sched im sx sy sz' imOut method M Hs W T S D Wo Hx Hy Hz. destruct (trilinear_ok t junk sched im sx sy sz' imOut Hs W T S Wo Hx Hy Hz) as (out & E & A).
  exists out. split; [|exact A]. unfold resize, depth. replace (dd (sz im) >? 1) with true by lia. destruct M as [-> | ->]; exact E.
Qed.
Print Assumptions C119_trilinear_partial.

(** Each value lies between the extreme values of the pixels at less than one pixel of its position. *)
Theorem C119_range2_partial : forall t fuel junk sched im sx sy sz' imOut out lo hi i j v, legal_sched sched -> wf_img im -> typed_img t im -> solid_dims (sz im) -> dd (sz im) = 1 -> wf_img imOut -> 2 <= sx -> 2 <= sy ->
  resize t fuel junk sched im sx sy sz' imOut "bilinear" = Some (1, out) -> pixel_is out i j 0 v ->
  (forall x y u, next_to (dw (sz im)) sx i x -> next_to (dh (sz im)) sy j y -> pixel_is im x y 0 u -> lo <= u <= hi) -> lo <= v <= hi.
Proof.
  intros t fuel junk sched im sx sy sz' imOut out lo hi i j v Hs W T S D Wo Hx Hy E Hv B.
  destruct (C119_bilinear_partial t fuel junk sched im sx sy sz' imOut "bilinear" (or_introl eq_refl) Hs W T S D Wo Hx Hy) as (o & E' & _ & Es & H). rewrite E in E'. injection E' as <-.
  rewrite (H i j v Hv). destruct Hv as ((Hi & Hj & _) & _). rewrite Es in Hi, Hj. cbn in Hi, Hj. destruct S as (S1 & S2 & S3).
  assert (V : forall x y, next_to (dw (sz im)) sx i x -> next_to (dh (sz im)) sy j y -> lo <= value im x y 0 <= hi).
  { intros x y Nx Ny. apply (B x y); auto. apply value_is; [exact W|]. destruct Nx, Ny. unfold inside. lia. }
  apply quot_between; [nia|]. rewrite <- !lin2_const with (s := sz im) (i := i) (j := j). split; apply lin2_mono; try assumption; intros x y Nx Ny; apply (V x y Nx Ny).
Qed.
Print Assumptions C119_range2_partial.
Theorem C119_range3_partial : forall t fuel junk sched im sx sy sz' imOut out lo hi i j k v, legal_sched sched -> wf_img im -> typed_img t im -> solid_dims (sz im) -> 2 <= dd (sz im) -> wf_img imOut -> 2 <= sx -> 2 <= sy -> 2 <= sz' ->
  resize t fuel junk sched im sx sy sz' imOut "trilinear" = Some (1, out) -> pixel_is out i j k v ->
  (forall x y z u, next_to (dw (sz im)) sx i x -> next_to (dh (sz im)) sy j y -> next_to (dd (sz im)) sz' k z -> pixel_is im x y z u -> lo <= u <= hi) -> lo <= v <= hi.
Proof.
  intros t fuel junk sched im sx sy sz' imOut out lo hi i j k v Hs W T S D Wo Hx Hy Hz E Hv B.
  destruct (C119_trilinear_partial t fuel junk sched im sx sy sz' imOut "trilinear" (or_intror eq_refl) Hs W T S D Wo Hx Hy Hz) as (o & E' & _ & Es & H). rewrite E in E'. injection E' as <-.
  rewrite (H i j k v Hv). destruct Hv as ((Hi & Hj & Hk) & _). rewrite Es in Hi, Hj, Hk. cbn in Hi, Hj, Hk. destruct S as (S1 & S2 & S3).
  assert (V : forall x y z, next_to (dw (sz im)) sx i x -> next_to (dh (sz im)) sy j y -> next_to (dd (sz im)) sz' k z -> lo <= value im x y z <= hi).
  { intros x y z Nx Ny Nz. apply (B x y z); auto. apply value_is; [exact W|]. destruct Nx, Ny, Nz. unfold inside. lia. }
  apply quot_between; [apply Z.mul_pos_pos; [nia|lia]|]. rewrite <- !lin3_const with (s := sz im) (i := i) (j := j) (k := k). split; apply lin3_mono; try assumption; intros x y z Nx Ny Nz; apply (V x y z Nx Ny Nz).
Qed.
Print Assumptions C119_range3_partial.

(** At its own size the image is unchanged. *)
Theorem C119_same_size_partial : forall t fuel junk sched im imOut method, method = "bilinear"%string \/ method = "trilinear"%string -> legal_sched sched -> wf_img im -> typed_img t im -> 2 <= dw (sz im) -> 2 <= dh (sz im) -> 1 <= dd (sz im) -> wf_img imOut ->
  resize t fuel junk sched im (dw (sz im)) (dh (sz im)) (dd (sz im)) imOut method = Some (1, im).
Proof.
  intros t fuel junk sched im imOut method M Hs W T Hx Hy Hz Wo. assert (S : solid_dims (sz im)) by (repeat split; lia). destruct (Z.eq_dec (dd (sz im)) 1) as [D|D].
  - destruct (C119_bilinear_partial t fuel junk sched im (dw (sz im)) (dh (sz im)) (dd (sz im)) imOut method M Hs W T S D Wo Hx Hy) as (o & E & W' & Es & H). rewrite E. do 2 f_equal.
    assert (Ed : sz o = sz im) by (rewrite Es, <- D; destruct (sz im); reflexivity). apply img_ext; [exact W'|exact W|exact Ed|]. intros x y z v Hv. pose proof (proj1 Hv) as Hin. rewrite Ed in Hin.
    assert (z = 0) as -> by (destruct Hin; lia). rewrite (H x y v Hv). unfold lin2. rewrite lin_exact, lin_exact by lia.
    replace ((dw (sz im) - 1) * ((dh (sz im) - 1) * value im x y 0)) with (value im x y 0 * ((dw (sz im) - 1) * (dh (sz im) - 1))) by ring. rewrite Z.quot_mul by nia. apply value_is; assumption.
  - destruct (C119_trilinear_partial t fuel junk sched im (dw (sz im)) (dh (sz im)) (dd (sz im)) imOut method M Hs W T S ltac:(lia) Wo Hx Hy ltac:(lia)) as (o & E & W' & Es & H). rewrite E. do 2 f_equal.
    assert (Ed : sz o = sz im) by (rewrite Es; destruct (sz im); reflexivity). apply img_ext; [exact W'|exact W|exact Ed|]. intros x y z v Hv. pose proof (proj1 Hv) as Hin. rewrite Ed in Hin.
    rewrite (H x y z v Hv). unfold lin3. rewrite lin_exact, lin_exact, lin_exact by lia.
    replace ((dw (sz im) - 1) * ((dh (sz im) - 1) * ((dd (sz im) - 1) * value im x y z))) with (value im x y z * ((dw (sz im) - 1) * (dh (sz im) - 1) * (dd (sz im) - 1))) by ring.
    rewrite Z.quot_mul; [apply value_is; assumption|]. assert (0 < (dw (sz im) - 1) * (dh (sz im) - 1) * (dd (sz im) - 1)); [apply Z.mul_pos_pos; [nia|lia]|lia].
Qed.
Print Assumptions C119_same_size_partial.
(** Interpolation is increasing. *)
Theorem C119_monotone_partial : forall t fuel junk sched im im' sx sy sz' imOut imOut' out out' i j v v', legal_sched sched -> wf_img im -> wf_img im' -> typed_img t im -> typed_img t im' -> solid_dims (sz im) -> dd (sz im) = 1 -> sz im = sz im' -> wf_img imOut -> wf_img imOut' -> 2 <= sx -> 2 <= sy ->
  (forall x y u u', pixel_is im x y 0 u -> pixel_is im' x y 0 u' -> u <= u') ->
  resize t fuel junk sched im sx sy sz' imOut "bilinear" = Some (1, out) -> resize t fuel junk sched im' sx sy sz' imOut' "bilinear" = Some (1, out') ->
  pixel_is out i j 0 v -> pixel_is out' i j 0 v' -> v <= v'.
Proof.
  intros t fuel junk sched im im' sx sy sz' imOut imOut' out out' i j v v' Hs W W' T T' S D Es Wo Wo' Hx Hy Le E E' Hv Hv'.
  destruct (C119_bilinear_partial t fuel junk sched im sx sy sz' imOut "bilinear" (or_introl eq_refl) Hs W T S D Wo Hx Hy) as (o & E1 & _ & Es1 & H1). rewrite E in E1. injection E1 as <-.
  rewrite Es in S, D. destruct (C119_bilinear_partial t fuel junk sched im' sx sy sz' imOut' "bilinear" (or_introl eq_refl) Hs W' T' S D Wo' Hx Hy) as (o & E2 & _ & Es2 & H2). rewrite E' in E2. injection E2 as <-.
  rewrite (H1 i j v Hv), (H2 i j v' Hv'). destruct Hv as ((Hi & Hj & _) & _). rewrite Es1 in Hi, Hj. cbn in Hi, Hj. destruct S as (S1 & S2 & S3).
  apply Z.quot_le_mono; [nia|]. rewrite Es. apply lin2_mono; try assumption. intros x y (Nx & _) (Ny & _). apply (Le x y); apply value_is; try assumption; try rewrite Es; unfold inside; lia.
Qed.
Print Assumptions C119_monotone_partial.
(** Images of one column cannot be resized, not even to their own size. *)
Theorem C119_column_refuted : ~ (forall t junk sched im sx sy sz' imOut, legal_sched sched -> wf_img im -> typed_img t im -> solid_dims (sz im) -> dd (sz im) = 1 -> wf_img imOut -> 1 <= sx -> 1 <= sy ->
  exists fuel out, resize t fuel junk sched im sx sy sz' imOut "bilinear" = Some (1, out)).
Proof.
  intros H. destruct (H UINT8 (fun _ => 0) (fun l => l) (Img (Dims 1 2 1) [7; 8]) 1 2 1 (Img (Dims 1 1 1) [0])) as (fuel & out & E); try lia; try reflexivity.
  - intros l i. reflexivity.
  - split; [repeat split; cbn; lia|reflexivity].
  - repeat constructor; cbn; lia.
  - repeat split; cbn; lia.
  - split; [repeat split; cbn; lia|reflexivity].
  - destruct fuel; discriminate.
Qed.
Print Assumptions C119_column_refuted.
Example C119_case : resize UINT8 0 (fun _ => 5) (fun l => l) chess 3 3 1 (Img (Dims 1 1 1) [0]) "bilinear" = Some (1, Img (Dims 3 3 1) [0; 4; 9; 4; 4; 4; 9; 4; 0]) /\
  resize UINT8 0 (fun _ => 5) (@rev _) (Img (Dims 2 2 2) [0; 0; 0; 0; 8; 8; 8; 8]) 2 2 3 (Img (Dims 1 1 1) [0]) "trilinear" = Some (1, Img (Dims 2 2 3) [0; 0; 0; 0; 4; 4; 4; 4; 8; 8; 8; 8]) /\ next_to 2 3 1 0 /\ next_to 2 3 1 1.
Proof. split; [reflexivity|]. split; [reflexivity|]. unfold next_to. lia. Qed.

(** C120: isBinary recognises the images that take exactly two values, one of them 0. *)
Theorem C120_isBinary : forall im, isBinary im = true <-> two_valued im.
Proof. exact isBinary_ok. Qed.
Print Assumptions C120_isBinary.
(** The method "auto" keeps the values of binary images and interpolates the others; unknown methods are rejected. *)
Theorem C120_auto_partial : forall t fuel junk sched im sx sy sz' imOut, legal_sched sched -> wf_img im -> solid_dims (sz im) -> dd (sz im) = 1 -> wf_img imOut -> 2 <= sx -> 2 <= sy ->
  two_valued im -> exists out, resize t (S fuel) junk sched im sx sy sz' imOut "auto" = Some (1, out) /\ exists c, forall v, In v (pixs out) -> v = 0 \/ v = c.
Proof.
  intros t fuel junk sched im sx sy sz' imOut Hs W S D Wo Hx Hy B.
  assert (E0 : forall fuel, resize t fuel junk sched im sx sy sz' imOut "auto" = resize t fuel junk sched im sx sy sz' imOut "closest").
  { intros f. unfold resize. rewrite (proj2 (isBinary_ok im) B). reflexivity. }
  destruct (C118_closest_partial t fuel junk sched im sx sy sz' imOut Hs W S D Wo Hx Hy) as (out & E & _). exists out. split; [rewrite E0; exact E|].
  destruct B as (c & _ & _ & _ & All). exists c. intros v Hv. apply All. apply (C118_values_partial t fuel junk sched im sx sy sz' imOut out Hs W S D Wo Hx Hy E v Hv).
Qed.
Print Assumptions C120_auto_partial.
Theorem C120_auto_grey : forall t fuel junk sched im sx sy sz' imOut, ~ two_valued im ->
  resize t fuel junk sched im sx sy sz' imOut "auto" = resize t fuel junk sched im sx sy sz' imOut "trilinear".
Proof.
  intros t fuel junk sched im sx sy sz' imOut N. unfold resize. assert (isBinary im = false) as -> by (destruct (isBinary im) eqn:E; [apply isBinary_ok in E; contradiction|reflexivity]).
  cbn [String.eqb Ascii.eqb Bool.eqb]. destruct (depth im >? 1); reflexivity.
Qed.
Print Assumptions C120_auto_grey.
Theorem C120_unknown : forall t fuel junk sched im sx sy sz' imOut method, ~ In method ["auto"; "closest"; "bilinear"; "trilinear"]%string ->
  resize t fuel junk sched im sx sy sz' imOut method = Some (-100, imOut).
Proof.
  intros t fuel junk sched im sx sy sz' imOut method H. unfold resize. cbn in H.
  destruct (String.eqb_spec method "auto"); [subst; tauto|]. destruct (String.eqb_spec method "closest"); [subst; tauto|]. destruct (String.eqb_spec method "bilinear"); [subst; tauto|]. destruct (String.eqb_spec method "trilinear"); [subst; tauto|]. reflexivity.
Qed.
Print Assumptions C120_unknown.
(** On binary volumes, "auto" never ends. *)
Theorem C120_auto_volume_refuted : ~ (forall t junk sched im sx sy sz' imOut, legal_sched sched -> wf_img im -> solid_dims (sz im) -> wf_img imOut -> 2 <= sx -> 2 <= sy -> 2 <= sz' ->
  exists fuel out, resize t fuel junk sched im sx sy sz' imOut "auto" = Some (1, out)).
Proof.
  intros H. assert (W : wf_img (Img (Dims 2 2 2) [0; 1; 0; 1; 1; 1; 0; 0])) by (split; [repeat split; cbn; lia|reflexivity]).
  destruct (H UINT8 (fun _ => 0) (fun l => l) _ 2 2 2 _ ltac:(intros l i; reflexivity) W ltac:(repeat split; cbn; lia) W ltac:(lia) ltac:(lia) ltac:(lia)) as (fuel & out & E).
  change (resize UINT8 fuel (fun _ => 0) (fun l => l) (Img (Dims 2 2 2) [0; 1; 0; 1; 1; 1; 0; 0]) 2 2 2 (Img (Dims 2 2 2) [0; 1; 0; 1; 1; 1; 0; 0]) "closest" = Some (1, out)) in E.
  rewrite C118_volume_never in E by (cbn; lia). discriminate.
Qed.
Print Assumptions C120_auto_volume_refuted.
Example C120_case : isBinary chess = true /\ isBinary (Img (Dims 2 1 1) [3; 4]) = false /\ isBinary (Img (Dims 2 1 1) [0; 0]) = false /\ isBinary (Img (Dims 3 1 1) [0; 3; 4]) = false /\ two_valued chess.
Proof. repeat split. exists 9. split; [lia|]. split; [cbn; auto|]. split; [cbn; auto|]. intros v Hv. cbn in Hv. lia. Qed.
