(** C19: structuring elements. *)
From Verif Require Import Spec.MorphSpec Proofs.StrEltProofs.
From Coq Require Import List ZArith.
Import ListNotations.
Open Scope Z_scope.

(** C19.  addPoint. *)
Theorem C19_addPoint : forall se p,
  (forall q, In q (se_points (addPoint se p)) <-> In q (se_points se) \/ q = p) /\
  (NoDup (se_points se) -> NoDup (se_points (addPoint se p))) /\
  se_odd (addPoint se p) = se_odd se /\ se_size (addPoint se p) = se_size se.
Proof. intros se p. split; [intros q; apply add_point_In|]. split; [apply add_point_NoDup|]. split; reflexivity. Qed.
Print Assumptions C19_addPoint.

(** C19.  transpose on the square grid reflects every point. *)
Theorem C19_transpose_square : forall se, se_odd se = false -> forall x y z,
  In (x, y, z) (se_points (transpose se)) <-> In (- x, - y, - z) (se_points se).
Proof.
  intros se Ho x y z. rewrite transpose_In, Ho. unfold refl_pt, px_, py_, pz_. cbn. rewrite Z.sub_0_r. reflexivity.
Qed.
Print Assumptions C19_transpose_square.

(** C19.  transpose on both grids: it reverses the relation "covers"; the points are distinct, and transposing
    twice gives back the element, in the same order. *)
Theorem C19_transpose_converse : forall se x y z x' y' z',
  (se_odd se = true -> Z.even z = true /\ forall p, In p (se_points se) -> pz_ p = 0) ->
  (sees (transpose se) x y z x' y' z' <-> sees se x' y' z' x y z).
Proof. exact sees_transpose. Qed.
Print Assumptions C19_transpose_converse.

Theorem C19_transpose_involution : forall se,
  NoDup (se_points (transpose se)) /\ (NoDup (se_points se) -> transpose (transpose se) = se).
Proof. intros se. split; [apply transpose_NoDup|apply transpose_invol]. Qed.
Print Assumptions C19_transpose_involution.

(** C19.  noCenter. *)
Theorem C19_noCenter : forall se, NoDup (se_points (noCenter se)) /\
  forall q, In q (se_points (noCenter se)) <-> In q (se_points se) /\ q <> (0, 0, 0).
Proof. intros se. split; [apply noCenter_NoDup|]. intros q. apply noCenter_In. Qed.
Print Assumptions C19_noCenter.

(** C19.  homothety: its points cover what is reached in 1 to n steps, on both grids; exactly n steps when the
    origin is a point of the element. *)
Theorem C19_homothety_partial : forall se n x y z x' y' z', 1 <= n <= 2 ^ 32 ->
  (se_odd se = true -> Z.even z = true /\ forall p, In p (se_points se) -> pz_ p = 0) ->
  (sees (homothety se n) x y z x' y' z' <-> exists k, (1 <= k <= Z.to_nat n)%nat /\ steps se k x y z x' y' z').
Proof. exact homothety_sees. Qed.
Print Assumptions C19_homothety_partial.

Theorem C19_homothety_origin : forall se n x y z x' y' z', 1 <= n <= 2 ^ 32 ->
  (se_odd se = true -> Z.even z = true /\ forall p, In p (se_points se) -> pz_ p = 0) ->
  In (0, 0, 0) (se_points se) ->
  (sees (homothety se n) x y z x' y' z' <-> steps se (Z.to_nat n) x y z x' y' z').
Proof. exact homothety_origin. Qed.
Print Assumptions C19_homothety_origin.

Theorem C19_homothety_NoDup : forall se n, NoDup (se_points se) -> NoDup (se_points (homothety se n)).
Proof. exact homothety_NoDup. Qed.
Print Assumptions C19_homothety_NoDup.

(** C19 is false without the origin: the points already there are kept. *)
Theorem C19_homothety_refuted : exists se n x y z x' y' z', 1 <= n /\ se_odd se = false /\ NoDup (se_points se) /\
  sees (homothety se n) x y z x' y' z' /\ ~ steps se (Z.to_nat n) x y z x' y' z'.
Proof.
  exists (SE false SE_Generic 1 [(1, 0, 0)]), 2, 0, 0, 0, (-1), 0, 0. split; [lia|]. split; [reflexivity|].
  split; [constructor; [intros []|constructor]|]. split; [exists (1, 0, 0); split; [vm_compute; auto|repeat split]|].
  change (Z.to_nat 2) with 2%nat. intros (x1 & y1 & z1 & (x2 & y2 & z2 & (-> & -> & ->) & p & Hp & -> & _) & p' & Hp' & E & _).
  destruct Hp as [<-|[]]. destruct Hp' as [<-|[]]. cbn in E. discriminate.
Qed.
Print Assumptions C19_homothety_refuted.

(** homothety(0) is not an empty or one-point element: the unsigned counter wraps around. *)
Theorem C19_homothety_zero_refuted : forall se, se_points (homothety se 0) = homothety_loop (Z.to_nat (2 ^ 32 - 1)) (se_odd se) (se_points se) (se_points se).
Proof. intros se. unfold homothety. cbn [se_points]. f_equal. Qed.
Print Assumptions C19_homothety_zero_refuted.

Example C19_case_hex : se_points (transpose (HexSE 1)) = [(0, 0, 0); (-1, 0, 0); (-1, 1, 0); (0, 1, 0); (1, 0, 0); (0, -1, 0); (-1, -1, 0)]
  /\ length (se_points (homothety (HexSE 1) 2)) = 19%nat /\ length (se_points (homothety (SquSE 1) 3)) = 49%nat.
Proof. vm_compute. auto. Qed.
Example C19_case_planar : se_odd (HexSE 1) = true /\ forall p, In p (se_points (HexSE 1)) -> pz_ p = 0.
Proof. split; [reflexivity|]. intros p Hp. vm_compute in Hp. repeat (destruct Hp as [<-|Hp]; [reflexivity|]). destruct Hp. Qed.
