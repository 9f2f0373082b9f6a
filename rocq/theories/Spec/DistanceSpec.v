(** Specification of the distance functions. *)
From Verif Require Export Spec.LabelSpec Model.Distance.

(** [D p q d]: the distance from place [p] to place [q] is [d].  [out] holds, at each pixel, the least distance to a pixel of
    value 0 of [im], but [M] when there is none at a distance under [M]. *)
Definition distance_map (D : Z * Z * Z -> Z * Z * Z -> Z -> Prop) (M : Z) (im out : img) : Prop :=
  sz out = sz im /\ wf_img out /\
  forall x y z o, pixel_is out x y z o ->
    least (fun d => d = M \/ exists x' y' z', pixel_is im x' y' z' 0 /\ D (x, y, z) (x', y', z') d) o.

(** The numbers of steps to the four neighbours in the slice, to the six neighbours, to the eight neighbours in the slice. *)
Definition city2 (p q : Z * Z * Z) (d : Z) : Prop :=
  let '(x, y, z) := p in let '(x', y', z') := q in z = z' /\ d = Z.abs (x - x') + Z.abs (y - y').
Definition city3 (p q : Z * Z * Z) (d : Z) : Prop :=
  let '(x, y, z) := p in let '(x', y', z') := q in d = Z.abs (x - x') + Z.abs (y - y') + Z.abs (z - z').
Definition chess2 (p q : Z * Z * Z) (d : Z) : Prop :=
  let '(x, y, z) := p in let '(x', y', z') := q in z = z' /\ d = Z.max (Z.abs (x - x')) (Z.abs (y - y')).
(** The squares of the Euclidean distances, in the slice and in the volume. *)
Definition euclid2 (p q : Z * Z * Z) (d : Z) : Prop :=
  let '(x, y, z) := p in let '(x', y', z') := q in z = z' /\ d = (x - x') * (x - x') + (y - y') * (y - y').
Definition euclid3 (p q : Z * Z * Z) (d : Z) : Prop :=
  let '(x, y, z) := p in let '(x', y', z') := q in d = (x - x') * (x - x') + (y - y') * (y - y') + (z - z') * (z - z').

(** A pixel of value 0 lies at [n] steps of the element, inside the image. *)
Definition zero_at (se : strelt) (im : img) (n : nat) (x y z : Z) : Prop :=
  exists x' y' z', pixel_is im x' y' z' 0 /\ path se (sz im) n x y z x' y' z'.
(** [out] holds, at each pixel, the least number of steps that lead to a pixel of value 0, and 0 when none does. *)
Definition step_map (se : strelt) (im out : img) : Prop :=
  sz out = sz im /\ wf_img out /\
  forall x y z o, pixel_is out x y z o ->
    (forall n, zero_at se im n x y z -> least (fun d => exists m, d = Z.of_nat m /\ zero_at se im m x y z) o) /\
    ((forall n, ~ zero_at se im n x y z) -> o = 0).
