(** The neighbours met by the scan of the code are the pixels whose element covers the current one. *)
From Verif Require Export Spec.GeodesicSpec Proofs.MorphFacts Proofs.GeometryProofs.

Lemma to_int_id z : - 2 ^ 31 <= z < 2 ^ 31 -> to_int z = z.
Proof. intros. unfold to_int. rewrite Z.mod_small; lia. Qed.

Lemma int_small s : int_sized s -> small s.
Proof. unfold int_sized, small. intros (A & B & C & D). lia. Qed.

Lemma int_wf s : int_sized s -> wf_dims s.
Proof. unfold int_sized, wf_dims. lia. Qed.

Definition hex_shift (se : strelt) (y0 y : Z) : Z := if se_odd se && Z.odd y0 && Z.even y then 1 else 0.

Lemma odd_mod2 y : negb (y mod 2 =? 0) = Z.odd y.
Proof. rewrite Zmod_odd. destruct (Z.odd y); reflexivity. Qed.

Lemma nb_offset_spec se s x0 y0 z0 p : int_sized s -> inside s x0 y0 z0 ->
  Z.abs (px_ p) < 2 ^ 30 -> Z.abs (py_ p) < 2 ^ 30 -> Z.abs (pz_ p) < 2 ^ 30 ->
  let x := x0 + px_ p + hex_shift se y0 (y0 + py_ p) in let y := y0 + py_ p in let z := z0 + pz_ p in
  (inside s x y z -> nb_offset se s (voxel_offset (dw s) (dh s) x0 y0 z0) (x0, y0, z0) p = Some (voxel_offset (dw s) (dh s) x y z)) /\
  (~ inside s x y z -> nb_offset se s (voxel_offset (dw s) (dh s) x0 y0 z0) (x0, y0, z0) p = None).
Proof.
  intros Hs H0 Hx Hy Hz x y z. pose proof Hs as (Bw & Bh & Bd & Bn). pose proof H0 as (Ix & Iy & Iz).
  unfold nb_offset. rewrite odd_mod2. rewrite (to_int_id (x0 + px_ p)), (to_int_id (y0 + py_ p)), (to_int_id (z0 + pz_ p)) by lia.
  assert (Es : (if se_odd se && Z.odd y0 then bit (oddb (y0 + py_ p + 1)) else 0) = hex_shift se y0 (y0 + py_ p)).
  { unfold hex_shift. rewrite oddb_odd, Z.odd_add. change (Z.odd 1) with true. rewrite <- (Z.negb_even (y0 + py_ p)).
    destruct (se_odd se && Z.odd y0); [|reflexivity]. destruct (Z.even (y0 + py_ p)); reflexivity. }
  rewrite Es. fold x y z. unfold in_bounds. rewrite (to_int_id (dw s)), (to_int_id (dh s)), (to_int_id (dd s)) by lia.
  assert (Sh : 0 <= hex_shift se y0 (y0 + py_ p) <= 1) by (unfold hex_shift; match goal with |- context [if ?c then _ else _] => destruct c end; lia).
  split.
  - intros HI. pose proof HI as (Jx & Jy & Jz). replace (_ && _) with true by lia.
    pose proof (inside_range _ _ _ _ H0) as R0. pose proof (inside_range _ _ _ _ HI) as R1.
    f_equal. unfold dOffset.
    assert (E : px_ p + py_ p * dw s + pz_ p * dw s * dh s = voxel_offset (dw s) (dh s) x y z - voxel_offset (dw s) (dh s) x0 y0 z0 - hex_shift se y0 (y0 + py_ p)).
    { unfold voxel_offset, x, y, z. ring. }
    rewrite E, to_int_id by lia.
    set (o := voxel_offset (dw s) (dh s) x y z) in *. set (o0 := voxel_offset (dw s) (dh s) x0 y0 z0) in *.
    set (sh := hex_shift se y0 (y0 + py_ p)) in *.
    replace (o0 + (o - o0 - sh)) with (o - sh) by ring.
    unfold to_size. rewrite Z.add_mod_idemp_l by lia. change (hex_shift se y0 y) with sh. replace (o - sh + sh) with o by ring. apply Z.mod_small; lia.
  - intros HN. replace (_ && _) with false; [reflexivity|]. symmetry. unfold inside in HN. lia.
Qed.

(** The offsets of the neighbours, in the order of the points. *)
Definition nbs (se : strelt) (s : dims) (off : Z) (xyz : Z * Z * Z) : list Z :=
  flat_map (fun p => if not_origin p then match nb_offset se s off xyz p with Some o => [o] | None => [] end else []) (se_points se).

(** The element placed on the pixel at offset [nb] covers the pixel at offset [cur]. *)
Definition covers (se : strelt) (s : dims) (nb cur : Z) : Prop :=
  exists x y z x' y' z', inside s x y z /\ inside s x' y' z' /\ nb = voxel_offset (dw s) (dh s) x y z /\
    cur = voxel_offset (dw s) (dh s) x' y' z' /\ sees se x y z x' y' z'.

Lemma sees_shift se s x y z x' y' z' : planar se s -> inside s x y z -> inside s x' y' z' ->
  (sees se x y z x' y' z' <-> exists p, In p (se_points se) /\ x = x' + px_ p + hex_shift se y' y /\ y = y' + py_ p /\ z = z' + pz_ p).
Proof.
  intros HP I I'. unfold sees, src_x, hex_shift. split; intros (p & Hp & A & B & C); exists p; (split; [exact Hp|]).
  - destruct (se_odd se) eqn:O; cbn [andb] in *; [|lia].
    destruct (HP O) as [D1 _]. destruct I as (_ & _ & Iz). replace z with 0 in A by lia. cbn [Z.even] in A.
    rewrite andb_true_r in A. replace (y - py_ p) with y' in A by lia. rewrite andb_comm in A. lia.
  - destruct (se_odd se) eqn:O; cbn [andb] in *; [|lia].
    destruct (HP O) as [D1 _]. destruct I as (_ & _ & Iz). replace z with 0 by lia. cbn [Z.even].
    rewrite andb_true_r. replace (y - py_ p) with y' by lia. rewrite (andb_comm (Z.even y)). destruct I' as (_ & _ & Iz'). lia.
Qed.

Lemma voxel_inj s x y z x' y' z' : inside s x y z -> inside s x' y' z' ->
  voxel_offset (dw s) (dh s) x y z = voxel_offset (dw s) (dh s) x' y' z' -> x = x' /\ y = y' /\ z = z'.
Proof.
  unfold inside, voxel_offset. intros (A & B & C) (A' & B' & C') E.
  assert (y + dh s * z = y' + dh s * z') as E1 by nia.
  assert (x = x') by nia. assert (z = z') by nia. nia.
Qed.

(** Every neighbour met is inside the image and covers the current pixel; every covering pixel is met, or is the current
    pixel itself. *)
Lemma nbs_spec se s cur : int_sized s -> int_points se -> planar se s -> 0 <= cur < dw s * dh s * dd s ->
  exists xyz, getCoordsFromOffset s cur = Some xyz /\
    (forall nb, In nb (nbs se s cur xyz) -> 0 <= nb < dw s * dh s * dd s /\ covers se s nb cur) /\
    (forall nb, covers se s nb cur -> nb = cur \/ In nb (nbs se s cur xyz)).
Proof.
  intros Hs Hp HP Hc. destruct (voxel_exists s cur (int_small _ Hs) Hc) as (x0 & y0 & z0 & I0 & E0).
  exists (x0, y0, z0). split; [rewrite E0; apply coords_voxel; [apply int_small; exact Hs|exact I0]|]. split.
  - intros nb Hn. apply in_flat_map in Hn as (p & Hip & Hn). destruct (not_origin p) eqn:No; [|contradiction].
    destruct (Hp p Hip) as (B1 & B2 & B3). destruct (nb_offset_spec se s x0 y0 z0 p Hs I0 B1 B2 B3) as [S1 S2].
    cbv zeta in S1, S2. set (x := x0 + px_ p + hex_shift se y0 (y0 + py_ p)) in *. rewrite E0 in Hn.
    assert (D : inside s x (y0 + py_ p) (z0 + pz_ p) \/ ~ inside s x (y0 + py_ p) (z0 + pz_ p)) by (unfold inside; lia).
    destruct D as [D|D]; [|rewrite (S2 D) in Hn; contradiction]. rewrite (S1 D) in Hn. destruct Hn as [<-|[]].
    split; [apply inside_range; exact D|]. exists x, (y0 + py_ p), (z0 + pz_ p), x0, y0, z0.
    split; [exact D|]. split; [exact I0|]. split; [reflexivity|]. split; [exact E0|]. apply (sees_shift se s); auto. exists p. unfold x. auto.
  - intros nb (x & y & z & x' & y' & z' & I & I' & En & Ec & Hse). rewrite E0 in Ec.
    destruct (voxel_inj s _ _ _ _ _ _ I0 I' Ec) as (<- & <- & <-).
    apply (sees_shift se s) in Hse; auto. destruct Hse as (p & Hip & Ex & Ey & Ez).
    destruct (not_origin p) eqn:No.
    + right. apply in_flat_map. exists p. split; [exact Hip|]. rewrite No.
      destruct (Hp p Hip) as (B1 & B2 & B3). destruct (nb_offset_spec se s x0 y0 z0 p Hs I0 B1 B2 B3) as [S1 _]. cbv zeta in S1.
      rewrite <- Ey, <- Ex, <- Ez in S1. rewrite E0, (S1 I). left. auto.
    + left. unfold not_origin in No. assert (px_ p = 0 /\ py_ p = 0 /\ pz_ p = 0) as (P1 & P2 & P3) by lia.
      assert (hex_shift se y0 y = 0) as Z0. { unfold hex_shift. replace y with y0 by lia. rewrite <- Z.negb_even. destruct (se_odd se), (Z.even y0); reflexivity. }
      rewrite En, E0. f_equal; lia.
Qed.

(** A scan is a loop over these neighbours. *)
Lemma scan_nbs {A} (f : A -> Z -> option A) se s cur xyz (g : A -> point -> option A) :
  (forall st p, g st p = if not_origin p then match nb_offset se s cur xyz p with None => Some st | Some nb => f st nb end else Some st) ->
  forall st, fold_opt g (se_points se) st = fold_opt f (nbs se s cur xyz) st.
Proof.
  intros H. unfold nbs. induction (se_points se) as [|p l IH]; intros st; [reflexivity|].
  cbn [fold_opt flat_map]. rewrite H, fold_opt_app. destruct (not_origin p); [|cbn; apply IH].
  destruct (nb_offset se s cur xyz p); cbn; [destruct (f st z); [apply IH|reflexivity]|apply IH].
Qed.
