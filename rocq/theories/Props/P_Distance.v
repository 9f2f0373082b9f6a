(** C42 and C64 to C67: distance functions. *)
From Verif Require Export Proofs.DistanceProofs5 Proofs.DistanceProofs7 Props.P_Label Props.P_Morph Props.P_Geodesic.

(** ** C42 *)

(** [distance] with the cross of size 1: the city-block distance to the nearest zero of the slice, or the maximum of the type when there
    is none nearer, for all types, all images and whatever the output holds. *)
Theorem C42_distCross : forall t1 t2 junk cs fuel alias imIn imOut, wf_img imIn -> wf_img imOut -> sz imOut = sz imIn -> all_pos (sz imIn) ->
  exists out, distance t1 t2 junk cs fuel (CrossSE 1) alias imIn imOut = Some (Some (1, out)) /\ distance_map city2 (tmax t2) imIn out.
Proof.
  intros t1 t2 junk cs fuel alias imIn imOut W W' E P. destruct (distCross_spec t2 imIn imOut W W' E P) as (out & H & D).
  exists out. split; [|exact D]. change (option_map Some (distCross t2 imIn imOut) = Some (Some (1, out))). rewrite H. reflexivity.
Qed.
Print Assumptions C42_distCross.

(** The map is determined by the image. *)
Theorem C42_unique : forall D M im o1 o2, distance_map D M im o1 -> distance_map D M im o2 -> o1 = o2.
Proof.
  intros D M im o1 o2 (S1 & W1 & H1) (S2 & W2 & H2). apply img_ext; try assumption; [congruence|].
  intros x y z a Ha. destruct (pixel_exists o2 x y z W2) as (b & Hb). { rewrite S2, <- S1. apply Ha. }
  destruct (H1 _ _ _ _ Ha) as (A1 & A2). destruct (H2 _ _ _ _ Hb) as (B1 & B2).
  pose proof (A2 _ B1). pose proof (B2 _ A1). replace a with b by lia. exact Hb.
Qed.
Print Assumptions C42_unique.

(** Images of different sizes are rejected. *)
Theorem C42_size : forall t2 imIn imOut, sz imOut <> sz imIn -> distCross t2 imIn imOut = Some (-98, imOut).
Proof.
  intros t2 imIn imOut N. unfold distCross. destruct (same_size imIn imOut) eqn:E; [|reflexivity]. exfalso. apply N. unfold same_size in E.
  unfold width, height, depth in E. rewrite !andb_true_iff, !Z.eqb_eq in E. destruct (sz imIn), (sz imOut). cbn in E. destruct E as ((-> & ->) & ->). reflexivity.
Qed.
Print Assumptions C42_size.

Definition well := Img (Dims 4 3 1) [5;5;5;5; 5;0;5;5; 5;5;5;5].
Example C42_case : wf_img well /\ all_pos (sz well) /\ distCross UINT8 well well = Some (1, Img (Dims 4 3 1) [2;1;2;3; 1;0;1;2; 2;1;2;3]).
Proof. split; [repeat split; cbn; lia|]. split; [repeat split; cbn; lia|vm_compute; reflexivity]. Qed.

(** ** C64 *)

(** [distance] with the cross in three dimensions, for the types other than UINT32. *)
Theorem C64_distCross3d_partial : forall t1 t2 junk cs fuel alias imIn imOut, t2 <> UINT32 -> wf_img imIn -> wf_img imOut -> sz imOut = sz imIn -> all_pos (sz imIn) ->
  exists out, distance t1 t2 junk cs fuel (Cross3DSE 1) alias imIn imOut = Some (Some (1, out)) /\ distance_map city3 (tmax t2) imIn out.
Proof.
  intros t1 t2 junk cs fuel alias imIn imOut N W W' E P. destruct (distCross3d_spec t2 imIn imOut N W W' E P) as (out & H & D).
  exists out. split; [|exact D]. change (option_map Some (distCross3d t2 imIn imOut) = Some (Some (1, out))). rewrite H. reflexivity.
Qed.
Print Assumptions C64_distCross3d_partial.

(** False for UINT32: one more than the maximum is 0, and a pixel with no zero above it gets the distance 0. *)
Definition hollow := Img (Dims 2 2 1) [7; 7; 7; 0].
Theorem C64_UINT32_refuted : exists out, distCross3d UINT32 hollow hollow = Some (1, out) /\ pixel_is out 0 1 0 0 /\ pixel_is hollow 0 1 0 7 /\
  ~ distance_map city3 (tmax UINT32) hollow out.
Proof.
  eexists. split; [vm_compute; reflexivity|]. split; [split; [repeat split; cbn; lia|reflexivity]|]. split; [split; [repeat split; cbn; lia|reflexivity]|].
  intros (_ & _ & H). destruct (H 0 1 0 0 ltac:(split; [repeat split; cbn; lia|reflexivity])) as ([E|(x' & y' & z' & ((A & B & C) & R) & E)] & _); [discriminate E|].
  cbn in A, B, C. unfold city3, euclid3 in E. assert (x' = 0) as -> by lia. assert (y' = 1) as -> by lia. assert (z' = 0) as -> by lia. discriminate R.
Qed.
Print Assumptions C64_UINT32_refuted.

Definition shaft := Img (Dims 2 2 3) [5;5;5;5; 5;5;5;5; 0;5;5;5].
Example C64_case : wf_img shaft /\ all_pos (sz shaft) /\ distCross3d UINT8 shaft shaft = Some (1, Img (Dims 2 2 3) [2;3;3;4; 1;2;2;3; 0;1;1;2]).
Proof. split; [repeat split; cbn; lia|]. split; [repeat split; cbn; lia|vm_compute; reflexivity]. Qed.

(** ** C65 *)

(** [distance] with the square of size 1, in place or not: the chessboard distance to the nearest zero of the slice. *)
Theorem C65_distSquare : forall t1 t2 junk cs fuel alias imIn imOut, wf_img imIn -> wf_img imOut -> sz imOut = sz imIn -> all_pos (sz imIn) -> (alias = true -> imOut = imIn) ->
  exists out, distance t1 t2 junk cs fuel (SquSE 1) alias imIn imOut = Some (Some (1, out)) /\ distance_map chess2 (tmax t2) imIn out.
Proof.
  intros t1 t2 junk cs fuel alias imIn imOut W W' E P A. destruct (distSquare_spec junk t2 alias imIn imOut W W' E P A) as (out & H & D).
  exists out. split; [|exact D]. change (option_map Some (distSquare junk t2 alias imIn imOut) = Some (Some (1, out))). rewrite H. reflexivity.
Qed.
Print Assumptions C65_distSquare.

Definition wide := Img (Dims 5 2 1) [0;5;5;5;5; 5;5;5;5;0].
Example C65_case : wf_img wide /\ all_pos (sz wide) /\ distSquare (fun _ => 7) UINT8 true wide wide = Some (1, Img (Dims 5 2 1) [0;1;2;1;1; 1;1;2;1;0]).
Proof. split; [repeat split; cbn; lia|]. split; [repeat split; cbn; lia|vm_compute; reflexivity]. Qed.

(** ** C66 *)

(** Missing for the full claim: UINT32, images deeper than wide or wider than 46341, pixels whose slice has no zero at a squared distance
    within the type and, for UINT16, columns without zero. *)
Theorem C66_distanceEuclidean_partial : forall t2 alias imIn imOut, t2 <> UINT32 -> wf_img imIn -> wf_img imOut -> sz imOut = sz imIn -> all_pos (sz imIn) -> (alias = true -> imOut = imIn) ->
  dw (sz imIn) <= 46341 -> dd (sz imIn) <= dw (sz imIn) ->
  (forall x y z, inside (sz imIn) x y z -> exists x' y', pixel_is imIn x' y' z 0 /\ (x - x') * (x - x') + (y - y') * (y - y') <= tmax t2) ->
  (t2 = UINT16 -> forall x y z, inside (sz imIn) x y z -> exists y', pixel_is imIn x y' z 0 /\ Z.abs (y - y') <= 46340) ->
  exists out, distanceEuclidean t2 alias imIn imOut = Some (1, out) /\ distance_map euclid3 (tmax t2) imIn out.
Proof. exact distanceEuclidean_spec. Qed.
Print Assumptions C66_distanceEuclidean_partial.

(** The vectors have one cell per column of the image but are also used across the slices. *)
Theorem C66_depth_refuted : distanceEuclidean UINT8 false (Img (Dims 1 1 2) [1; 0]) (Img (Dims 1 1 2) [0; 0]) = None.
Proof. vm_compute. reflexivity. Qed.
Print Assumptions C66_depth_refuted.

(** The squares are not saturated: at 16 pixels from the zero, 256 is stored as 0. *)
Definition ruler := Img (Dims 17 1 1) (0 :: repeat 1 16%nat).
Theorem C66_saturation_refuted : exists out, distanceEuclidean UINT8 false ruler ruler = Some (1, out) /\ pixel_is ruler 16 0 0 1 /\ pixel_is out 16 0 0 0 /\ ~ distance_map euclid3 (tmax UINT8) ruler out.
Proof.
  eexists. split; [vm_compute; reflexivity|]. split; [split; [repeat split; cbn; lia|reflexivity]|]. split; [split; [repeat split; cbn; lia|reflexivity]|].
  intros (_ & _ & H). destruct (H 16 0 0 0 ltac:(split; [repeat split; cbn; lia|reflexivity])) as ([E|(x' & y' & z' & ((A & B & C) & R) & E)] & _); [discriminate E|].
  cbn in A, B, C. unfold city3, euclid3 in E. assert (x' = 16) as -> by nia. assert (y' = 0) as -> by lia. assert (z' = 0) as -> by lia. discriminate R.
Qed.
Print Assumptions C66_saturation_refuted.

(** A slice with no zero at all starts from the square of the maximum, which wraps around: pixels at distance 2 get 1. *)
Definition deep := Img (Dims 3 1 3) [1;1;1; 1;1;1; 0;0;0].
Theorem C66_slice_refuted : exists out, distanceEuclidean UINT8 false deep deep = Some (1, out) /\ pixel_is out 0 0 0 1 /\ ~ distance_map euclid3 (tmax UINT8) deep out.
Proof.
  eexists. split; [vm_compute; reflexivity|]. split; [split; [repeat split; cbn; lia|reflexivity]|].
  intros (_ & _ & H). destruct (H 0 0 0 1 ltac:(split; [repeat split; cbn; lia|reflexivity])) as ([E|(x' & y' & z' & ((A & B & C) & R) & E)] & _); [discriminate E|].
  cbn in A, B, C. unfold city3, euclid3 in E. assert (y' = 0) as -> by lia. assert (T : z' = 0 \/ z' = 1) by nia. assert (x' = 0 \/ x' = 1 \/ x' = 2) by lia.
  destruct T as [-> | ->]; destruct H0 as [-> |[-> | ->]]; discriminate R.
Qed.
Print Assumptions C66_slice_refuted.

(** UINT16: a column without zero; the square of the maximum overflows an int. *)
Theorem C66_overflow_refuted : distanceEuclidean UINT16 false (Img (Dims 2 1 1) [0; 1]) (Img (Dims 2 1 1) [0; 0]) = None.
Proof. vm_compute. reflexivity. Qed.
Print Assumptions C66_overflow_refuted.

Definition pair3 := Img (Dims 3 2 2) [0;5;5; 5;5;5; 5;5;5; 5;5;0].
Example C66_case : wf_img pair3 /\ all_pos (sz pair3) /\ dw (sz pair3) <= 46341 /\ dd (sz pair3) <= dw (sz pair3) /\
  (forall x y z, inside (sz pair3) x y z -> exists x' y', pixel_is pair3 x' y' z 0 /\ (x - x') * (x - x') + (y - y') * (y - y') <= tmax UINT8) /\
  distanceEuclidean UINT8 true pair3 pair3 = Some (1, Img (Dims 3 2 2) [0;1;2; 1;2;1; 1;2;1; 2;1;0]).
Proof.
  split; [repeat split; cbn; lia|]. split; [repeat split; cbn; lia|]. split; [cbn; lia|]. split; [cbn; lia|]. split; [|vm_compute; reflexivity].
  intros x y z (A & B & C). cbn in A, B, C. assert (z = 0 \/ z = 1) as [-> | ->] by lia.
  - exists 0, 0. split; [split; [repeat split; cbn; lia|reflexivity]|]. cbn. nia.
  - exists 2, 1. split; [split; [repeat split; cbn; lia|reflexivity]|]. cbn. nia.
Qed.

(** ** C67 *)

(** [distance] with any other symmetric element of size 1: the least number of steps to a zero, 0 when no zero can be reached.
    Missing for the full claim: elements of larger size, calls in place, distances over the maximum of the output type, negative values. *)
Theorem C67_distGeneric_partial : forall t1 t2 junk cs fuel se imIn imOut, wf_img imIn -> wf_img imOut -> sz imOut = sz imIn -> all_pos (sz imIn) -> dw (sz imIn) < 2 ^ 63 ->
  (forall k, legal_conf (dh (sz imIn)) (cs k)) -> typed_se se -> se_size se = 1 -> fits (transpose se) (sz imIn) -> planar se (sz imIn) -> symmetric_se se ->
  tmin t1 = 0 \/ In (0, 0, 0) (se_points se) -> (forall x y z v, pixel_is imIn x y z v -> 0 <= v) ->
  (forall n x y z, inside (sz imIn) x y z -> zero_at se imIn n x y z -> exists m, zero_at se imIn m x y z /\ Z.of_nat m <= tmax t2) ->
  pixelCount (sz imIn) < Z.of_nat fuel ->
  exists out, distGeneric t1 t2 junk cs fuel se false imIn imOut = Some (Some (1, out)) /\ step_map se imIn out.
Proof. exact distGeneric_spec. Qed.
Print Assumptions C67_distGeneric_partial.

Theorem C67_distance_partial : forall t1 t2 junk cs fuel se alias imIn imOut, se_size se <= 1 -> se_type se <> SE_Cross -> se_type se <> SE_Cross3D -> se_type se <> SE_Squ ->
  distance t1 t2 junk cs fuel se alias imIn imOut = distGeneric t1 t2 junk cs fuel se alias imIn imOut.
Proof.
  intros t1 t2 junk cs fuel se alias imIn imOut Hs H1 H2 H3. unfold distance. replace (se_size se >? 1) with false by lia. destruct (se_type se); congruence.
Qed.
Print Assumptions C67_distance_partial.

(** The level is counted in the type of the output: on a line of 258 pixels, the last is given the distance 1. *)
Definition lane := Img (Dims 258 1 1) (0 :: repeat 1 257%nat).
Theorem C67_wrap_refuted : exists out, distGeneric UINT8 UINT8 (fun _ => 7) one_thread 300 (HorizSE 1) false lane lane = Some (Some (1, out)) /\ pixel_is out 257 0 0 1 /\ ~ step_map (HorizSE 1) lane out.
Proof.
  eexists. split; [vm_compute; reflexivity|]. split; [split; [repeat split; cbn; lia|reflexivity]|]. intros (_ & _ & H).
  destruct (H 257 0 0 1 ltac:(split; [repeat split; cbn; lia|reflexivity])) as (A & _).
  assert (P0 : pixel_is lane 0 0 0 0) by (split; [repeat split; cbn; lia|reflexivity]).
  assert (PA : forall n, Z.of_nat n <= 257 -> path (HorizSE 1) (sz lane) n (Z.of_nat n) 0 0 0 0 0).
  { induction n as [|n IH]; intros Hn; [repeat split|]. exists (Z.of_nat n), 0, 0. split; [|split; [repeat split; cbn; lia|apply IH; lia]].
    exists (1, 0, 0). split; [vm_compute; tauto|]. unfold src_x, px_, py_, pz_. cbn [fst snd HorizSE se_odd andb]. repeat split; lia. }
  destruct (A 257%nat) as ((m & E & (x' & y' & z' & Hp & Hpa)) & _).
  - exists 0, 0, 0. split; [exact P0|]. apply (PA 257%nat). lia.
  - destruct m as [|m]; [discriminate E|]. assert (m = 0%nat) as -> by lia. destruct Hpa as (x1 & y1 & z1 & (p & Hq & -> & -> & ->) & I & (-> & -> & ->)).
    vm_compute in Hq. destruct Hq as [<-|[<-|[<-|[]]]]; [destruct Hp as (_ & Hp); vm_compute in Hp; discriminate Hp..].
Qed.
Print Assumptions C67_wrap_refuted.

(** In place, the output has no more the values of the input: only the first level is written. *)
Definition trench := Img (Dims 4 1 1) [0; 5; 5; 5].
Theorem C67_inplace_refuted : exists out out', distGeneric UINT8 UINT8 (fun _ => 7) one_thread 300 (HorizSE 1) true trench trench = Some (Some (1, out)) /\
  distGeneric UINT8 UINT8 (fun _ => 7) one_thread 300 (HorizSE 1) false trench trench = Some (Some (1, out')) /\ pixel_is out 3 0 0 0 /\ pixel_is out' 3 0 0 3.
Proof. do 2 eexists. split; [vm_compute; reflexivity|]. split; [vm_compute; reflexivity|]. split; (split; [repeat split; cbn; lia|reflexivity]). Qed.
Print Assumptions C67_inplace_refuted.

(** With an element of size 2, the first step covers two pixels and the next ones only one: at 5 pixels the result is 4, and not
    the 3 steps of the element of size 2 or the 5 steps of the element of size 1. *)
Definition rail := Img (Dims 6 1 1) [0; 5; 5; 5; 5; 5].
Theorem C67_size_refuted : exists out, distance UINT8 UINT8 (fun _ => 7) one_thread 300 (HorizSE 2) false rail rail = Some (Some (1, out)) /\ pixel_is out 5 0 0 4 /\
  ~ step_map (scaled (HorizSE 2)) rail out /\ ~ step_map (HorizSE 1) rail out.
Proof.
  eexists. split; [vm_compute; reflexivity|]. assert (P4 : pixel_is (Img (Dims 6 1 1) [0; 1; 1; 2; 3; 4]) 5 0 0 4) by (split; [repeat split; cbn; lia|reflexivity]).
  split; [exact P4|]. assert (P0 : pixel_is rail 0 0 0 0) by (split; [repeat split; cbn; lia|reflexivity]).
  assert (ST : forall se k x x1, In (k, 0, 0) (se_points se) -> se_odd se = false -> x1 = x - k -> sees se x 0 0 x1 0 0).
  { intros se k x x1 Hk Ho ->. exists (k, 0, 0). split; [exact Hk|]. unfold src_x, px_, py_, pz_. rewrite Ho. cbn [fst snd andb]. repeat split; lia. }
  split; intros (_ & _ & H); destruct (H 5 0 0 4 P4) as (A & _).
  - destruct (A 3%nat) as (_ & B).
    + exists 0, 0, 0. split; [exact P0|]. exists 3, 0, 0. split; [apply ST with 2; [vm_compute; tauto|reflexivity|reflexivity]|]. split; [repeat split; cbn; lia|].
      exists 1, 0, 0. split; [apply ST with 2; [vm_compute; tauto|reflexivity|reflexivity]|]. split; [repeat split; cbn; lia|].
      exists 0, 0, 0. split; [apply ST with 1; [vm_compute; tauto|reflexivity|reflexivity]|]. split; [repeat split; cbn; lia|repeat split].
    + enough (4 <= 3) by lia. apply B. exists 3%nat. split; [reflexivity|]. exists 0, 0, 0. split; [exact P0|].
      exists 3, 0, 0. split; [apply ST with 2; [vm_compute; tauto|reflexivity|reflexivity]|]. split; [repeat split; cbn; lia|].
      exists 1, 0, 0. split; [apply ST with 2; [vm_compute; tauto|reflexivity|reflexivity]|]. split; [repeat split; cbn; lia|].
      exists 0, 0, 0. split; [apply ST with 1; [vm_compute; tauto|reflexivity|reflexivity]|]. split; [repeat split; cbn; lia|repeat split].
  - assert (PA : forall n, Z.of_nat n <= 5 -> path (HorizSE 1) (sz rail) n (Z.of_nat n) 0 0 0 0 0).
    { induction n as [|n IH]; intros Hn; [repeat split|]. exists (Z.of_nat n), 0, 0. split; [|split; [repeat split; cbn; lia|apply IH; lia]]. apply ST with 1; [vm_compute; tauto|reflexivity|lia]. }
    destruct (A 5%nat) as ((m & E & (x' & y' & z' & Hp & Hpa)) & _); [exists 0, 0, 0; split; [exact P0|apply (PA 5%nat); lia]|].
    assert (m = 4%nat) as -> by lia.
    assert (Q : forall n x y z x' y' z', path (HorizSE 1) (sz rail) n x y z x' y' z' -> x - Z.of_nat n <= x').
    { clear. induction n as [|n IH]; intros x y z x' y' z' Hp; [destruct Hp as (-> & _); lia|]. destruct Hp as (x1 & y1 & z1 & (p & Hq & -> & _) & _ & Hp). apply IH in Hp.
      vm_compute in Hq. unfold src_x, px_ in Hp. cbn [HorizSE se_odd andb] in Hp. destruct Hq as [<-|[<-|[<-|[]]]]; cbn [fst] in Hp; lia. }
    apply Q in Hpa. destruct Hp as ((Ix & Iy & Iz) & Hp). cbn in Ix, Iy, Iz. assert (y' = 0) as -> by lia. assert (z' = 0) as -> by lia.
    assert (x' = 1 \/ x' = 2 \/ x' = 3 \/ x' = 4 \/ x' = 5) as C by lia. decompose [or] C; subst x'; discriminate Hp.
Qed.
Print Assumptions C67_size_refuted.

Definition comb := Img (Dims 4 3 1) [0;5;5;5; 5;5;5;5; 5;5;5;5].
Example C67_case : wf_img comb /\ all_pos (sz comb) /\ typed_se (HexSE 1) /\ fits (transpose (HexSE 1)) (sz comb) /\ planar (HexSE 1) (sz comb) /\ symmetric_se (HexSE 1) /\ (forall k, legal_conf (dh (sz comb)) (one_thread k)) /\
  In (0, 0, 0) (se_points (HexSE 1)) /\
  distance UINT8 UINT8 (fun _ => 7) one_thread 20 (HexSE 1) false comb comb = Some (Some (1, Img (Dims 4 3 1) [0;1;2;3; 1;2;3;4; 2;2;3;4])).
Proof.
  split; [repeat split; cbn; lia|]. split; [repeat split; cbn; lia|]. split; [split; [reflexivity|tauto]|]. split; [cbn; lia|]. split; [intros _; split; [reflexivity|in_points]|].
  split; [apply element_check_ok; vm_compute; reflexivity|]. split; [intros k; apply one_thread_legal; cbn; lia|]. split; [vm_compute; tauto|]. vm_compute. reflexivity.
Qed.
