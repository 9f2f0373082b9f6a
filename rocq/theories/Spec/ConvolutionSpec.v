(** Specification vocabulary for convolutions: weighted means over a window. *)
From Coq Require Export Permutation.
From Verif Require Export Spec.MomentsSpec Model.Convolution.
Local Open Scope Z_scope.

(** The weight of index [j]. *)
Definition kat (kernel : list Q) (j : Z) : Q := nth (Z.to_nat j) kernel 0%Q.
(** The displacements of at most [r] that stay on a line of [n] pixels. *)
Definition window (r n x : Z) : list Z := filter (fun i => (0 <=? x + i) && (x + i <? n)) (zrange (- r) (2 * r + 1)).
(** The mean of [f] over the window, weighted by the kernel. *)
Definition wmean (kernel : list Q) (r n : Z) (f : Z -> Z) (x : Z) : Q :=
  Qdiv (qsum (map (fun i => Qmult (kat kernel (i + r)) (inject_Z (f (x + i)))) (window r n x))) (qsum (map (fun i => kat kernel (i + r)) (window r n x))).
(** [v] is the integer part of [q]. *)
Definition integer_part (q : Q) (v : Z) : Prop :=
  ((0 <= q)%Q /\ (inject_Z v <= q)%Q /\ (q < inject_Z (v + 1))%Q) \/ ((q < 0)%Q /\ (q <= inject_Z v)%Q /\ (inject_Z (v - 1) < q)%Q).

(** Kernels of radius [r] with nonnegative weights and a positive centre. *)
Definition averaging (kernel : list Q) (r : Z) : Prop :=
  0 <= r /\ Z.of_nat (length kernel) = 2 * r + 1 /\ (forall k, In k kernel -> (0 <= k)%Q) /\ (0 < kat kernel r)%Q.
(** Symmetric, of sum 1. *)
Definition balanced_kernel (kernel : list Q) (r : Z) : Prop :=
  averaging kernel r /\ (forall j, 0 <= j <= 2 * r -> (kat kernel j == kat kernel (2 * r - j))%Q) /\ (qsum kernel == 1)%Q.

(** [out] is the mean of [im] along x, along y, along z. *)
Definition mean_x (kernel : list Q) (r : Z) (im out : img) : Prop :=
  wf_img out /\ sz out = sz im /\ forall x y z v, pixel_is out x y z v -> integer_part (wmean kernel r (dw (sz im)) (fun x => value im x y z) x) v.
Definition mean_y (kernel : list Q) (r : Z) (im out : img) : Prop :=
  wf_img out /\ sz out = sz im /\ forall x y z v, pixel_is out x y z v -> integer_part (wmean kernel r (dh (sz im)) (fun y => value im x y z) y) v.
Definition mean_z (kernel : list Q) (r : Z) (im out : img) : Prop :=
  wf_img out /\ sz out = sz im /\ forall x y z v, pixel_is out x y z v -> integer_part (wmean kernel r (dd (sz im)) (fun z => value im x y z) z) v.

(** The output can hold the result: it has the size of the input, or it will be resized. *)
Definition receives (auto : bool) (im imOut : img) : Prop := wf_img imOut /\ (auto = true \/ sz imOut = sz im).
(** The values within [r] pixels along the axes lie between [a] and [b]. *)
Definition around (rx ry rz : Z) (im : img) (x y z a b : Z) : Prop :=
  forall x' y' z' v, Z.abs (x' - x) <= rx -> Z.abs (y' - y) <= ry -> Z.abs (z' - z) <= rz -> pixel_is im x' y' z' v -> a <= v <= b.
