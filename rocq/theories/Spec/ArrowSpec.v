(** Specification vocabulary for arrow images. *)
From Coq Require Import String.
From Verif Require Export Spec.LabelSpec Model.Arrow.

(** The place point [p] leads to from (x,y,z).  On the hexagonal grid, the odd lines go one pixel further on the even lines. *)
Definition ahead_x (odd : bool) (x y : Z) (p : point) : Z := x + px_ p + (if odd && Z.odd y && Z.even (y + py_ p) then 1 else 0).
Definition reads_ahead (se : strelt) (im : img) (bv x y z : Z) (p : point) (u : Z) : Prop :=
  reads im bv (ahead_x (se_odd se) x y p) (y + py_ p) (z + pz_ p) u.

(** The meaning of the operations. *)
Definition says (op : string) (a u : Z) : Prop :=
  (op = "=="%string /\ a = u) \/ (op = ">"%string /\ u < a) \/ (op = ">="%string /\ u <= a) \/ (op = "<"%string /\ a < u) \/ (op = "<="%string /\ a <= u).
Definition operation (op : string) : Prop := op = "=="%string \/ op = ">"%string \/ op = ">="%string \/ op = "<"%string \/ op = "<="%string.

(** [out] has bit [k] at a pixel when the relation holds between the pixel and the one point number [k] leads to, for the
    points that have a bit in type [t2]. *)
Definition arrows_of (t2 : ity) (R : Z -> Z -> Prop) (se : strelt) (bv : Z) (im out : img) : Prop :=
  sz out = sz im /\ wf_img out /\ forall x y z a v, pixel_is im x y z a -> pixel_is out x y z v ->
    0 <= v < 2 ^ nbits t2 /\
    forall k p, rd (se_points se) k = Some p -> k < nbits t2 -> (Z.testbit v k = true <-> exists u, reads_ahead se im bv x y z p u /\ R a u).

(** The bits with no point are 0. *)
Definition no_other_bits (se : strelt) (out : img) : Prop :=
  forall x y z v k, pixel_is out x y z v -> Z.of_nat (length (se_points se)) <= k -> Z.testbit v k = false.

(** A call: images of the same size that are not the same image, an unsigned type for the arrows, points nearer than the
    width. *)
Definition near_points (se : strelt) (s : dims) : Prop := forall p, In p (se_points se) -> - dw s <= px_ p /\ px_ p + bit (se_odd se) <= dw s.
Definition arrow_ok (t2 : ity) (se : strelt) (c : conf) (im out : img) : Prop :=
  is_signed t2 = false /\ good_img im /\ wf_img out /\ sz out = sz im /\ legal_conf (dh (sz im)) c /\
  near_points se (sz im) /\ se_points se <> [] /\ (length (se_points se) <= 64)%nat.

(** The pixel and the values its points lead to. *)
Definition around (se : strelt) (im : img) (bv x y z a u : Z) : Prop := u = a \/ exists p, In p (se_points se) /\ reads_ahead se im bv x y z p u.
Definition flat_se (se : strelt) : Prop := forall p, In p (se_points se) -> pz_ p = 0.

(** [out]: arrows to the lowest of the pixel and its neighbours. *)
Definition min_arrows (t2 : ity) (se : strelt) (bv : Z) (im out : img) : Prop :=
  sz out = sz im /\ wf_img out /\ forall x y z a v, pixel_is im x y z a -> pixel_is out x y z v ->
    0 <= v < 2 ^ nbits t2 /\
    forall k p, rd (se_points se) k = Some p -> k < nbits t2 -> (Z.testbit v k = true <-> exists u, reads_ahead se im bv x y z p u /\ least (around se im bv x y z a) u).

(** ** Propagation *)
(** An arrow of (x,y,z) leads to (x',y',z'). *)
Definition leads (t : ity) (se : strelt) (arrows : img) (x y z x' y' z' : Z) : Prop :=
  exists k p a, rd (se_points se) k = Some p /\ k < nbits t /\ pixel_is arrows x y z a /\ Z.testbit a k = true /\
    x' = ahead_x (se_odd se) x y p /\ y' = y + py_ p /\ z' = z + pz_ p /\ inside (sz arrows) x' y' z'.

(** A path of arrows from (x0,y0,z0), through pixels of [out] that do not have value [v], reaches (x,y,z). *)
Inductive reached (t : ity) (se : strelt) (arrows out : img) (v x0 y0 z0 : Z) : Z -> Z -> Z -> Prop :=
| reached_first x y z o : leads t se arrows x0 y0 z0 x y z -> pixel_is out x y z o -> o <> v -> reached t se arrows out v x0 y0 z0 x y z
| reached_next x y z x' y' z' o : reached t se arrows out v x0 y0 z0 x' y' z' -> leads t se arrows x' y' z' x y z -> pixel_is out x y z o -> o <> v ->
    reached t se arrows out v x0 y0 z0 x y z.
Definition propagated (t : ity) (se : strelt) (arrows out : img) (v x0 y0 z0 : Z) (res : img) : Prop :=
  sz res = sz out /\ wf_img res /\ forall x y z o, pixel_is out x y z o ->
    (reached t se arrows out v x0 y0 z0 x y z /\ pixel_is res x y z v) \/ (~ reached t se arrows out v x0 y0 z0 x y z /\ pixel_is res x y z o).

(** The values at least [a] the points lead to. *)
Definition not_below (se : strelt) (im : img) (bv x y z a u : Z) : Prop := a <= u /\ exists p, In p (se_points se) /\ reads_ahead se im bv x y z p u.
(** [out]: arrows to the lowest of the neighbours that are not below the pixel, where one is less than [bv]; elsewhere, arrows to
    the neighbours that are below the pixel or have value [bv]. *)
Definition step_arrows (t2 : ity) (se : strelt) (bv : Z) (im out : img) : Prop :=
  sz out = sz im /\ wf_img out /\ forall x y z a v, pixel_is im x y z a -> pixel_is out x y z v ->
    0 <= v < 2 ^ nbits t2 /\
    forall k p u, rd (se_points se) k = Some p -> k < nbits t2 -> reads_ahead se im bv x y z p u ->
      ((exists w, not_below se im bv x y z a w /\ w < bv) -> (Z.testbit v k = true <-> least (not_below se im bv x y z a) u)) /\
      (~ (exists w, not_below se im bv x y z a w /\ w < bv) -> (Z.testbit v k = true <-> u < a \/ u = bv)).

(** ** The fast extrema: a call with distinct images of an unsigned type that has a bit for each point of the element but its
    centre, a symmetric element of size 1, and enough turns for each propagation. *)
Definition fast_ok (fuel : nat) (t : ity) (c1 c2 : nat -> conf) (se : strelt) (im out : img) : Prop :=
  is_signed t = false /\ good_img im /\ typed_img t im /\ wf_img out /\ sz out = sz im /\ int_sized (sz im) /\
  se_size se = 1 /\ se_type se <> SE_Rhombicuboctahedron /\ int_points se /\ near_points se (sz im) /\ planar se (sz im) /\ symmetric_se se /\
  se_points (noCenter se) <> [] /\ Z.of_nat (length (se_points (noCenter se))) <= nbits t /\
  legal_conf (dh (sz im)) (c1 O) /\ legal_conf (dh (sz im)) (c2 O) /\ (length (pixs im) < fuel)%nat.
